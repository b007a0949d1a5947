(** The theorems about a complete solve. *)
From Coq Require Import Qminmax QArith List Bool Arith ZArith Lia Lqa Permutation Sorted Qabs.
From Verif Require Import Base GreedyModel GreedySpec GreedyProofs1 GreedyProofs2 GreedyProofs3 GreedyProofs4.
Import ListNotations.
Open Scope Q_scope.

Lemma app_locate {A} (l1 l2 X Y : list A) b : l1 ++ b :: l2 = X ++ Y ->
  (exists X2, X = l1 ++ b :: X2 /\ l2 = X2 ++ Y) \/ (exists Y1, l1 = X ++ Y1 /\ Y = Y1 ++ b :: l2).
Proof.
  revert X. induction l1 as [|a l1 IH]; intros X E.
  - destruct X as [|x X]; simpl in E; [right; exists []; auto|].
    injection E as -> ->. left. exists X. auto.
  - destruct X as [|x X]; simpl in E.
    + right. exists (a :: l1). auto.
    + injection E as -> E. apply IH in E as [[X2 [-> ->]]|[Y1 [-> ->]]].
      * left. exists X2. auto.
      * right. exists Y1. auto.
Qed.

Lemma SS_split {A} (R : A -> A -> Prop) l1 a l2 b l3 :
  StronglySorted R (l1 ++ a :: l2 ++ b :: l3) -> R a b.
Proof.
  induction l1 as [|x l1 IH]; simpl; intros H; inversion H; subst; auto.
  rewrite Forall_forall in H3. apply H3. apply in_app_iff. right. left. auto.
Qed.

Section P.
Variables (fd : Q -> Q -> Q) (eps tol : Q) (w : option weights) (g : graph).
Hypothesis FD : fd_ok fd tol.
Hypothesis TE : tol <= eps.
Hypothesis WB : well_built fd g.

Let tol0 : 0 <= tol. Proof. apply FD. Qed.
Let h := conditioned w g.

Lemma cond_same : same g h.
Proof. unfold h. destruct w; simpl; [apply condition_same|apply same_refl]. Qed.
Let SM := cond_same.

Lemma cond_wb : well_built fd h.
Proof. apply (same_wb fd g h SM WB). Qed.
Let WBh := cond_wb.

Lemma solve_run : exists g', solve fd eps w g = Ok g' /\
  trs eps tol h (gr_req h) [] (gr_matches g') /\ gr_req g' = gr_req h.
Proof.
  destruct (solve_tr fd eps tol h FD TE WBh) as [st [E [_ T]]].
  unfold solve. fold h. rewrite E. eexists. split; [reflexivity|]. auto.
Qed.

Variable g' : graph.
Hypothesis SV : solve fd eps w g = Ok g'.

Lemma the_run : trs eps tol h (gr_req h) [] (gr_matches g') /\ gr_req g' = gr_req h.
Proof. destruct solve_run as [x [E T]]. assert (x = g') by congruence. subst. auto. Qed.

Let good := good eps h.

Lemma run_keeps (P : list (arc * Q) -> Prop) :
  (forall ms rem a q, good ms -> P ms -> In a (gr_arcs h) -> takes eps tol h ms rem a q ->
     P (ms ++ [(a, q)])) -> P [] -> P (gr_matches g').
Proof.
  intros S P0. destruct the_run as [T _].
  destruct (trs_keeps eps tol h P S _ _ _ T); auto. intros a q [].
Qed.

Lemma run_good : good (gr_matches g').
Proof.
  destruct the_run as [T _].
  refine (proj1 (trs_keeps eps tol h (fun _ => True) (fun _ _ _ _ _ _ _ _ => I) _ _ _ T _ I)).
  intros a q [].
Qed.

Lemma sup_bound : vbound tol h (gr_matches g').
Proof.
  apply run_keeps.
  - intros. eapply vbound_step; eauto.
  - intros G i c U Hc HU _. pose proof (wb_caps _ _ WBh G i c Hc).
    assert (0 <= tol * U) by (apply Qmult_le_0_compat; auto).
    unfold vload, sum_over. simpl. lra.
Qed.

Lemma req_bound : ubound tol h (gr_matches g').
Proof.
  apply run_keeps.
  - intros. eapply ubound_step; eauto.
  - intros G HG. destruct (g_caps (group_at h G)) as [|c l] eqn:E; [congruence|].
    exists 0%nat, c. split; auto. intros y U -> HU _.
    pose proof (wb_caps _ _ WBh G 0%nat y) as X. rewrite E in X. specialize (X eq_refl).
    assert (0 <= tol * U) by (apply Qmult_le_0_compat; auto).
    unfold uload, sum_over. simpl. lra.
Qed.

Lemma node_bound : nbound tol h (gr_matches g').
Proof.
  apply run_keeps.
  - intros. eapply nbound_step; eauto.
  - intros n. pose proof (wb_qty _ _ WBh n). unfold on_unode, on_vnode, sum_over. simpl. lra.
Qed.

(** Locating the matches of one request group. *)
Lemma group_part G : In G (gr_req h) -> exists ms1 new ms2 m,
  gr_matches g' = ms1 ++ new ++ ms2 /\
  tr eps tol h (g_qty (group_at h G)) (order h G) 0 ms1 m (ms1 ++ new) /\
  m == on_group h new G /\ on_group h ms1 G == 0 /\ on_group h ms2 G == 0 /\
  (forall a q, In (a, q) ms1 -> ugroup h a <> Some G) /\
  (forall a q, In (a, q) ms2 -> ugroup h a <> Some G).
Proof.
  intros HG. destruct the_run as [T _].
  destruct (trs_split fd eps tol h WBh (gr_req h) [] _ T (fun x H => H) (wb_nodup _ _ WBh))
    with (G := G) as (ms1 & new & ms2 & m & E & TR & _ & M & Z1 & Z2); auto.
  { intros. reflexivity. }
  simpl in *. exists ms1, new, ms2, m. split; auto. split; auto. split; auto. split; auto.
  split; auto. pose proof run_good as RG. rewrite E in RG.
  assert (NO : forall l, (forall a q, In (a, q) l -> In (a, q) (ms1 ++ new ++ ms2)) ->
     on_group h l G == 0 -> forall a q, In (a, q) l -> ugroup h a <> Some G).
  { intros l I Z a q Ha HU.
    apply in_split in Ha as [l1 [l2 ->]].
    assert (PP : forall k, (forall x y, In (x, y) k -> In (x, y) (l1 ++ (a, q) :: l2)) -> 0 <= on_group h k G).
    { intros k Hk. apply sum_over_nonneg. intros x y Hx. apply Hk, I, RG in Hx.
      destruct (is_group _ _); lra. }
    rewrite on_group_app in Z. change ((a, q) :: l2) with ([(a, q)] ++ l2) in Z.
    rewrite on_group_app in Z.
    assert (0 <= on_group h l1 G) by (apply PP; intros; apply in_app_iff; auto).
    assert (0 <= on_group h l2 G) by (apply PP; intros; apply in_app_iff; simpl; auto).
    assert (eps < q) by (eapply RG, I, in_app_iff; right; left; eauto).
    assert (on_group h [(a, q)] G == q).
    { unfold on_group, sum_over. cbn [map qsum fst snd]. rewrite HU, is_group_refl. ring. }
    lra. }
  split; apply NO; auto; intros a q Ha; rewrite !in_app_iff; auto.
Qed.

Lemma group_bound G : In G (gr_req h) ->
  on_group h (gr_matches g') G <= g_qty (group_at h G) + tol.
Proof.
  intros HG. destruct (group_part G HG) as (ms1 & new & ms2 & m & E & TR & M & Z1 & Z2 & _).
  rewrite E, !on_group_app, Z1, Z2, <- M.
  pose proof (tr_target fd eps tol h FD _ _ _ _ _ _ TR). pose proof (wb_target _ _ WBh G HG). lra.
Qed.

(** ** Exclusivity *)
Lemma arc_excl_u a : In a (gr_arcs h) -> n_excl (unode h a) = true -> 0 < a_exclval a ->
  a_excl a = true /\ a_exclval a = n_qty (unode h a).
Proof.
  intros Ha U P. destruct (wb_arc _ _ WBh a Ha) as (GU & GV & _ & _ & _ & _ & _ & _ & _ & _ & _ & _ & EA).
  pose proof (f_equal a_excl EA) as E1. pose proof (f_equal a_exclval EA) as E2.
  rewrite E1, E2. rewrite E2 in P. clear E1 E2 EA.
  unfold arc_new in *. rewrite U in *. simpl in *.
  destruct (n_excl (vnode h a)).
  - destruct (Qleb _ _); simpl in *; auto. lra.
  - destruct (Qleb _ _); simpl in *; auto. lra.
Qed.

Lemma arc_excl_v a : In a (gr_arcs h) -> n_excl (vnode h a) = true -> 0 < a_exclval a ->
  a_excl a = true /\ (n_excl (unode h a) = false -> a_exclval a = n_qty (vnode h a)) /\
  a_exclval a <= n_qty (vnode h a) + tol /\ n_qty (vnode h a) <= a_exclval a + tol.
Proof.
  intros Ha U P. destruct (wb_arc _ _ WBh a Ha) as (GU & GV & _ & _ & _ & _ & _ & _ & _ & _ & _ & _ & EA).
  destruct FD as (_ & F1 & F2 & _).
  pose proof (f_equal a_excl EA) as E1. pose proof (f_equal a_exclval EA) as E2.
  rewrite E1, E2. rewrite E2 in P. clear E1 E2 EA.
  unfold arc_new in *. rewrite U in *. rewrite orb_true_r in *.
  destruct (n_excl (unode h a)); simpl in *.
  - destruct (Qleb_spec (Qabs (fd (n_qty (unode h a)) (n_qty (vnode h a)))) float_ulp_eq);
      simpl in *; [|lra].
    apply Qabs_Qle_condition in q as [q1 q2]. unfold float_ulp_eq in *.
    apply F1 in q2. apply F2 in q1. split; auto. split; [discriminate|]. split; auto.
  - destruct (Qleb _ _); simpl in *; [|lra]. split; auto. split; auto. split; lra.
Qed.

Lemma arc_nonexcl a : In a (gr_arcs h) -> a_excl a = (n_excl (unode h a) || n_excl (vnode h a)).
Proof.
  intros Ha. destruct (wb_arc _ _ WBh a Ha) as (GU & GV & _ & _ & _ & _ & _ & _ & _ & _ & _ & _ & EA).
  rewrite (f_equal a_excl EA). unfold arc_new. destruct (n_excl (unode h a) || n_excl (vnode h a)); auto.
Qed.

Lemma on_unode_ge ms a q : good ms -> In (a, q) ms -> q <= on_unode ms (a_u a).
Proof.
  intros GM H. apply in_split in H as [l1 [l2 ->]]. unfold on_unode.
  change ((a, q) :: l2) with ([(a, q)] ++ l2). rewrite !sum_over_app.
  assert (forall k, (forall x y, In (x, y) k -> In (x, y) (l1 ++ (a, q) :: l2)) ->
    0 <= sum_over k (fun b r => if Nat.eqb (a_u b) (a_u a) then r else 0)).
  { intros k Hk. apply sum_over_nonneg. intros x y Hx. apply Hk, GM in Hx.
    destruct (Nat.eqb _ _); lra. }
  pose proof (H l1). pose proof (H l2).
  assert (sum_over [(a, q)] (fun b r => if Nat.eqb (a_u b) (a_u a) then r else 0) == q).
  { unfold sum_over. simpl. rewrite Nat.eqb_refl. ring. }
  rewrite H2. specialize (H0 ltac:(intros; apply in_app_iff; auto)).
  specialize (H1 ltac:(intros; apply in_app_iff; simpl; auto)). lra.
Qed.

Lemma on_vnode_ge ms a q : good ms -> In (a, q) ms -> q <= on_vnode ms (a_v a).
Proof.
  intros GM H. apply in_split in H as [l1 [l2 ->]]. unfold on_vnode.
  change ((a, q) :: l2) with ([(a, q)] ++ l2). rewrite !sum_over_app.
  assert (forall k, (forall x y, In (x, y) k -> In (x, y) (l1 ++ (a, q) :: l2)) ->
    0 <= sum_over k (fun b r => if Nat.eqb (a_v b) (a_v a) then r else 0)).
  { intros k Hk. apply sum_over_nonneg. intros x y Hx. apply Hk, GM in Hx.
    destruct (Nat.eqb _ _); lra. }
  pose proof (H l1). pose proof (H l2).
  assert (sum_over [(a, q)] (fun b r => if Nat.eqb (a_v b) (a_v a) then r else 0) == q).
  { unfold sum_over. simpl. rewrite Nat.eqb_refl. ring. }
  rewrite H2. specialize (H0 ltac:(intros; apply in_app_iff; auto)).
  specialize (H1 ltac:(intros; apply in_app_iff; simpl; auto)). lra.
Qed.

Definition exclP (ms : list (arc * Q)) : Prop :=
  forall a q, In (a, q) ms -> a_excl a = true -> q = a_exclval a.

Lemma snoc_split {A} (ms : list A) x m1 a m2 b m3 : ms ++ [x] = m1 ++ a :: m2 ++ b :: m3 ->
  (b = x /\ m3 = [] /\ ms = m1 ++ a :: m2) \/
  (exists m3', m3 = m3' ++ [x] /\ ms = m1 ++ a :: m2 ++ b :: m3').
Proof.
  destruct (rev m3) as [|y r] eqn:E; intros H.
  - assert (m3 = []) by (rewrite <- (rev_involutive m3), E; auto). subst.
    left. rewrite app_comm_cons, app_assoc in H.
    apply app_inj_tail in H as [-> ->]. auto.
  - assert (E2 : m3 = rev r ++ [y]) by (rewrite <- (rev_involutive m3), E; auto). subst.
    right. exists (rev r).
    replace (m1 ++ a :: m2 ++ b :: rev r ++ [y]) with ((m1 ++ a :: m2 ++ b :: rev r) ++ [y]) in H
      by (rewrite <- !app_assoc; simpl; rewrite <- app_assoc; auto).
    apply app_inj_tail in H as [-> ->]. auto.
Qed.

Definition once_u (ms : list (arc * Q)) : Prop :=
  forall m1 a q m2 b r m3, ms = m1 ++ (a, q) :: m2 ++ (b, r) :: m3 ->
    a_u a = a_u b -> n_excl (unode h a) = false.
Definition once_v (ms : list (arc * Q)) : Prop :=
  forall m1 a q m2 b r m3, ms = m1 ++ (a, q) :: m2 ++ (b, r) :: m3 ->
    a_v a = a_v b -> n_excl (vnode h a) = false.

Lemma excl_run : exclP (gr_matches g').
Proof.
  apply run_keeps.
  - intros ms rem a q GM P Ha T b r Hb X. apply in_app_iff in Hb as [Hb|[Hb|[]]]; auto.
    injection Hb as <- <-. destruct T as [_ T]. rewrite X in T. tauto.
  - intros a q [].
Qed.

Lemma takes_excl ms rem a q : takes eps tol h ms rem a q -> a_excl a = true -> q = a_exclval a.
Proof. intros [_ T] X. rewrite X in T. tauto. Qed.

Lemma once_u_run : once_u (gr_matches g').
Proof.
  assert (E0 : 0 <= eps) by lra.
  cut (exclP (gr_matches g') /\ once_u (gr_matches g')); [tauto|].
  apply run_keeps with (P := fun ms => exclP ms /\ once_u ms).
  - intros ms rem a q GM [P O] Ha T. split.
    + intros b r Hb X. apply in_app_iff in Hb as [Hb|[Hb|[]]]; auto.
      injection Hb as <- <-. eapply takes_excl; eauto.
    + intros m1 b r m2 c s m3 E U. apply snoc_split in E as [(E1 & -> & ->)|[m3' [-> ->]]].
      2:{ eapply O; eauto. }
      injection E1 as -> ->. destruct (n_excl (unode h b)) eqn:X; auto. exfalso.
      assert (Hb : In (b, r) (m1 ++ (b, r) :: m2)) by (apply in_app_iff; simpl; auto).
      destruct (GM _ _ Hb) as [Ib Pb].
      assert (XB : a_excl b = true) by (rewrite arc_nonexcl, X; auto).
      assert (Xa : n_excl (unode h a) = true) by (unfold unode in *; congruence).
      assert (XA : a_excl a = true) by (rewrite arc_nonexcl, Xa; auto).
      pose proof (P _ _ Hb XB) as Q1. pose proof (takes_excl _ _ _ _ T XA) as Q2.
      pose proof (takes_pos _ _ _ _ _ _ _ T).
      destruct (arc_excl_u b Ib X) as [_ V1]; [rewrite <- Q1; lra|].
      destruct (arc_excl_u a Ha Xa) as [_ V2]; [rewrite <- Q2; lra|].
      destruct (takes_room fd eps tol h FD _ _ _ _ T) as [t [_ [(R & _) L]]].
      pose proof (on_unode_ge _ _ _ GM Hb) as GE. rewrite U in GE. unfold unode in *.
      rewrite U in V1.
      assert (W1 : r == n_qty (node_at h (a_u a))) by (rewrite Q1, V1; reflexivity).
      assert (W2 : q == n_qty (node_at h (a_u a))) by (rewrite Q2, V2; reflexivity).
      lra.
  - split; [intros a q []|]. intros m1 a q m2 b r m3 E. destruct m1; discriminate.
Qed.

Lemma once_v_run : 2 * tol <= eps -> once_v (gr_matches g').
Proof.
  intros T2. assert (E0 : 0 <= eps) by lra.
  cut (exclP (gr_matches g') /\ once_v (gr_matches g')); [tauto|].
  apply run_keeps with (P := fun ms => exclP ms /\ once_v ms).
  - intros ms rem a q GM [P O] Ha T. split.
    + intros b r Hb X. apply in_app_iff in Hb as [Hb|[Hb|[]]]; auto.
      injection Hb as <- <-. eapply takes_excl; eauto.
    + intros m1 b r m2 c s m3 E U. apply snoc_split in E as [(E1 & -> & ->)|[m3' [-> ->]]].
      2:{ eapply O; eauto. }
      injection E1 as -> ->. destruct (n_excl (vnode h b)) eqn:X; auto. exfalso.
      assert (Hb : In (b, r) (m1 ++ (b, r) :: m2)) by (apply in_app_iff; simpl; auto).
      destruct (GM _ _ Hb) as [Ib Pb].
      assert (XB : a_excl b = true) by (rewrite arc_nonexcl, X; auto using orb_true_r).
      assert (Xa : n_excl (vnode h a) = true) by (unfold vnode in *; congruence).
      assert (XA : a_excl a = true) by (rewrite arc_nonexcl, Xa; auto using orb_true_r).
      pose proof (P _ _ Hb XB) as Q1. pose proof (takes_excl _ _ _ _ T XA) as Q2.
      pose proof (takes_pos _ _ _ _ _ _ _ T).
      destruct (arc_excl_v b Ib X) as (_ & _ & V1 & V1'); [rewrite <- Q1; lra|].
      destruct (arc_excl_v a Ha Xa) as (_ & _ & V2 & V2'); [rewrite <- Q2; lra|].
      destruct (takes_room fd eps tol h FD _ _ _ _ T) as [t [_ [(_ & R & _) L]]].
      pose proof (on_vnode_ge _ _ _ GM Hb) as GE. rewrite U in GE. unfold vnode in *.
      rewrite U in V1, V1'. rewrite <- Q1 in V1, V1'. rewrite <- Q2 in V2, V2'. lra.
  - split; [intros a q []|]. intros m1 a q m2 b r m3 E. destruct m1; discriminate.
Qed.

(** ** Order *)
Definition before (a b : arc) : Prop :=
  avg_pref (unode h b) <= avg_pref (unode h a) /\
  (a_u a = a_u b -> pref_of (unode h b) b <= pref_of (unode h a) a).

Lemma arcs_of_u n a G : In G (gr_req h) -> In n (g_nodes (group_at h G)) ->
  In a (arcs_of h n) -> a_u a = n.
Proof.
  intros HG Hn H. apply arcs_of_In in H as [Ha [H|H]]; auto. exfalso.
  pose proof (wb_req _ _ WBh G n HG Hn) as HN.
  destruct (wb_arc _ _ WBh a Ha) as (_ & GV & _ & _ & _ & HV & IV & _).
  unfold vgroup, vnode in HV. rewrite H in HV. assert (G = GV) by congruence. subst.
  eapply (wb_disj _ _ WBh); eauto.
Qed.

Lemma SS_app {A} (R : A -> A -> Prop) l1 l2 : StronglySorted R l1 -> StronglySorted R l2 ->
  (forall x y, In x l1 -> In y l2 -> R x y) -> StronglySorted R (l1 ++ l2).
Proof.
  induction 1; simpl; auto. intros S2 X. constructor.
  - apply IHStronglySorted; auto.
  - apply Forall_app. split; auto. apply Forall_forall. auto.
Qed.

Lemma SS_impl_in {A} (R R' : A -> A -> Prop) l :
  (forall x y, In x l -> In y l -> R x y -> R' x y) -> StronglySorted R l -> StronglySorted R' l.
Proof.
  intros I. induction 1; constructor.
  - apply IHStronglySorted. intros; apply I; simpl; auto.
  - rewrite Forall_forall in *. intros x Hx. apply I; simpl; auto.
Qed.

Lemma order_sorted G : In G (gr_req h) -> StronglySorted before (order h G).
Proof.
  intros HG. unfold order, order_of.
  assert (ND : NoDup (stable_sort (avg_pref_comp h) (g_nodes (group_at h G)))).
  { eapply Permutation_NoDup; [symmetry; apply sort_perm|]. apply (wb_nodes _ _ WBh); auto. }
  pose proof (sort_sorted (avg_pref_comp h) (g_nodes (group_at h G)) (avg_pref_swo h)) as SS.
  assert (IN : forall n, In n (stable_sort (avg_pref_comp h) (g_nodes (group_at h G))) ->
    In n (g_nodes (group_at h G))) by (intros n; apply sort_In).
  revert ND SS IN. generalize (stable_sort (avg_pref_comp h) (g_nodes (group_at h G))).
  induction l as [|n l IH]; intros ND SS IN; simpl; [constructor|].
  inversion ND; subst. inversion SS; subst.
  apply SS_app.
  - eapply SS_impl_in; [|apply sort_sorted, req_pref_swo].
    intros x y Hx Hy. apply sort_In in Hx. apply sort_In in Hy.
    assert (UX : a_u x = n) by (eapply arcs_of_u; eauto; apply IN; left; auto).
    assert (UY : a_u y = n) by (eapply arcs_of_u; eauto; apply IN; left; auto).
    unfold nb, req_pref_comp, before, unode. rewrite UX, UY. intros X. split; [lra|]. intros _.
    destruct (Qeqb_spec (pref_of (node_at h n) y) (pref_of (node_at h n) x)) as [Q1|Q1];
      cbn [negb] in X; [lra|].
    destruct (Qltb_spec (pref_of (node_at h n) x) (pref_of (node_at h n) y)); [discriminate|lra].
  - apply IH; auto. intros k Hk; apply IN; right; auto.
  - intros x y Hx Hy. apply sort_In in Hx. apply in_flat_map in Hy as [k [Hk Hy]].
    apply sort_In in Hy.
    assert (UX : a_u x = n) by (eapply arcs_of_u; eauto; apply IN; left; auto).
    assert (UY : a_u y = k) by (eapply arcs_of_u; eauto; apply IN; right; auto).
    unfold before, unode. rewrite UX, UY. split; [|intros ->; tauto].
    rewrite Forall_forall in H4. specialize (H4 k Hk). unfold nb, avg_pref_comp in H4.
    destruct (Qeqb_spec (avg_pref (node_at h k)) (avg_pref (node_at h n))) as [Q1|Q1];
      cbn [negb] in H4; [lra|].
    destruct (Qltb_spec (avg_pref (node_at h n)) (avg_pref (node_at h k))); [discriminate|lra].
Qed.

(** A match sits inside its own group's part. *)
Lemma locate G l1 b r l2 : In G (gr_req h) -> gr_matches g' = l1 ++ (b, r) :: l2 ->
  ugroup h b = Some G -> exists ms1 n1 n2 ms2 m,
    l1 = ms1 ++ n1 /\ l2 = n2 ++ ms2 /\
    tr eps tol h (g_qty (group_at h G)) (order h G) 0 ms1 m (ms1 ++ n1 ++ (b, r) :: n2) /\
    on_group h l1 G == sum_over n1 (fun _ q => q) /\
    (forall a q, In (a, q) ms1 -> ugroup h a <> Some G) /\
    (forall a q, In (a, q) n1 -> ugroup h a = Some G).
Proof.
  intros HG E HB. destruct (group_part G HG) as (ms1 & new & ms2 & m & E' & TR & M & Z1 & Z2 & N1 & N2).
  rewrite E' in E. symmetry in E. apply app_locate in E as [[X2 [X ->]]|[Y1 [-> Y]]].
  - exfalso. apply (N1 b r); auto. rewrite X. apply in_app_iff. simpl. auto.
  - symmetry in Y. apply app_locate in Y as [[X2 [-> ->]]|[Y2 [-> Y]]].
    + destruct (tr_app_ms eps tol h _ _ _ _ _ _ TR) as [nw [En [_ S]]].
      apply app_inv_head in En. subst nw.
      exists ms1, Y1, X2, ms2, m. split; auto. split; auto. split; auto. split; [|split; auto].
      * rewrite on_group_app, Z1, (on_group_new fd h WBh G); auto; [lra|].
        intros a q Ha. apply (S a q). apply in_app_iff. auto.
      * intros a q Ha. assert (IO : In a (order h G)) by (apply (S a q), in_app_iff; auto).
        apply (order_group fd h WBh) in IO; tauto.
    + exfalso. apply (N2 b r); auto. rewrite Y. apply in_app_iff. simpl. auto.
Qed.

Lemma order_lemma G l1 a q l2 b r l3 : In G (gr_req h) ->
  gr_matches g' = l1 ++ (a, q) :: l2 ++ (b, r) :: l3 ->
  ugroup h a = Some G -> ugroup h b = Some G -> before a b.
Proof.
  intros HG E HA HB.
  replace (l1 ++ (a, q) :: l2 ++ (b, r) :: l3) with ((l1 ++ (a, q) :: l2) ++ (b, r) :: l3) in E
    by (rewrite <- app_assoc; auto).
  destruct (locate G _ _ _ _ HG E HB) as (ms1 & n1 & n2 & ms2 & m & E1 & E2 & TR & _ & N1 & _).
  destruct (tr_before fd eps tol h FD TE WBh _ _ _ _ _ _ TR n1 b r n2 eq_refl)
    as [o1 [o2 [EO [_ IO]]]].
  assert (Ha : In (a, q) n1).
  { assert (H : In (a, q) (ms1 ++ n1)) by (rewrite <- E1; apply in_app_iff; simpl; auto).
    apply in_app_iff in H as [H|H]; auto. exfalso. eapply N1; eauto. }
  apply IO in Ha. apply in_split in Ha as [x [y ->]].
  pose proof (order_sorted G HG) as SS. rewrite EO, <- app_assoc in SS. simpl in SS.
  eapply SS_split; eauto.
Qed.

Lemma first_choice G l1 b r l2 a : In G (gr_req h) ->
  gr_matches g' = l1 ++ (b, r) :: l2 -> ugroup h b = Some G ->
  In a (gr_arcs h) -> ugroup h a = Some G -> ~ before b a ->
  spent eps h l1 (g_qty (group_at h G) - on_group h l1 G) a.
Proof.
  intros HG E HB Ia HA NB.
  destruct (locate G _ _ _ _ HG E HB) as (ms1 & n1 & n2 & ms2 & m & E1 & E2 & TR & OG & _ & _).
  destruct (tr_before fd eps tol h FD TE WBh _ _ _ _ _ _ TR n1 b r n2 eq_refl)
    as [o1 [o2 [EO [SP _]]]].
  pose proof (order_sorted G HG) as SS.
  pose proof (order_complete fd h WBh G a Ia HA) as IO. rewrite EO in IO, SS.
  apply in_app_iff in IO as [IO|[IO|IO]].
  - specialize (SP a IO). rewrite <- E1 in SP.
    unfold spent in *. destruct (a_excl a).
    + destruct SP as [SP|[SP|SP]]; auto. right; right. intros [X Y]. apply SP. split; auto. lra.
    + intros z X Y. apply SP; auto. lra.
  - subst. exfalso. apply NB. split; intros; lra.
  - exfalso. apply NB. apply in_split in IO as [x [y ->]].
    eapply SS_split; eauto.
Qed.

Lemma exhausted G a : In G (gr_req h) ->
  on_group h (gr_matches g') G <= g_qty (group_at h G) ->
  In a (gr_arcs h) -> ugroup h a = Some G ->
  spent eps h (gr_matches g') (g_qty (group_at h G) - on_group h (gr_matches g') G) a.
Proof.
  intros HG L Ia HA.
  destruct (group_part G HG) as (ms1 & new & ms2 & m & E & TR & M & Z1 & Z2 & _ & _).
  assert (OG : on_group h (gr_matches g') G == m).
  { rewrite E, !on_group_app, Z1, Z2, M. ring. }
  assert (MT : m <= g_qty (group_at h G)) by (rewrite OG in L; auto).
  pose proof (tr_spent fd eps tol h FD TE WBh _ _ _ _ _ _ TR MT a
    (order_complete fd h WBh G a Ia HA)) as SP.
  pose proof run_good as RG. rewrite E in RG.
  rewrite E. rewrite app_assoc.
  eapply (spent_mono fd eps tol h FD TE WBh) with (rem := g_qty (group_at h G) - m); eauto.
  - intros x y Hx. apply RG. rewrite !in_app_iff; auto.
  - rewrite <- app_assoc, <- E, OG. lra.
Qed.

(** Groups are served in the order of the graph's request groups. *)
Lemma trs_order Gs : forall ms ms', trs eps tol h Gs ms ms' -> incl Gs (gr_req h) ->
  forall l1 a q l2 b r l3, ms' = ms ++ l1 ++ (a, q) :: l2 ++ (b, r) :: l3 ->
  exists GA GB, ugroup h a = Some GA /\ ugroup h b = Some GB /\
    (GA = GB \/ exists x y z, Gs = x ++ GA :: y ++ GB :: z).
Proof.
  assert (NE : forall (ms l1 l2 l3 : list (arc * Q)) x y, ms <> ms ++ l1 ++ x :: l2 ++ y :: l3).
  { intros ms l1 l2 l3 x y E. rewrite <- (app_nil_r ms) in E at 1. apply app_inv_head in E.
    destruct l1; discriminate. }
  assert (LAST : forall Gs ms ms', trs eps tol h Gs ms ms' -> incl Gs (gr_req h) ->
    exists rest, ms' = ms ++ rest /\ forall b r, In (b, r) rest -> exists GB, In GB Gs /\ ugroup h b = Some GB).
  { induction 1; intros I.
    - exists []. rewrite app_nil_r. split; auto. intros b r [].
    - destruct IHtrs as [rest [E R]]; [intros x Hx; apply I; right; auto|].
      destruct (tr_app_ms eps tol h _ _ _ _ _ _ H) as [nw [En [_ S]]].
      exists (nw ++ rest). rewrite E, En, <- app_assoc. split; auto.
      intros b r Hb. apply in_app_iff in Hb as [Hb|Hb].
      + exists G. split; [left; auto|]. apply S in Hb as [Hb _].
        apply (order_group fd h WBh) in Hb; [tauto|]. apply I; left; auto.
      + destruct (R b r Hb) as [GB [X Y]]. exists GB. split; [right|]; auto. }
  induction 1; intros I l1 a q l2 b r l3 E.
  - exfalso. eapply NE; eauto.
  - destruct (tr_app_ms eps tol h _ _ _ _ _ _ H) as [nw [En [_ S]]].
    assert (NG : forall x y, In (x, y) nw -> ugroup h x = Some G).
    { intros x y Hx. apply S in Hx as [Hx _].
      apply (order_group fd h WBh) in Hx; [tauto|]. apply I; left; auto. }
    assert (I2 : incl Gs (gr_req h)) by (intros x Hx; apply I; right; auto).
    destruct (LAST _ _ _ H0 I2) as [rest [Er R]].
    subst ms1. rewrite E in Er. rewrite <- app_assoc in Er. apply app_inv_head in Er.
    apply app_locate in Er as [[X2 [X Y]]|[Y1 [Y X]]].
    + assert (HA : ugroup h a = Some G) by (apply (NG a q); rewrite X; apply in_app_iff; simpl; auto).
      apply app_locate in Y as [[X3 [Y Z]]|[Y1 [Y Z]]].
      * exists G, G. split; auto. split; auto. apply (NG b r). rewrite X, Y.
        apply in_app_iff. right. right. apply in_app_iff. simpl; auto.
      * destruct (R b r) as [GB [X3 Y3]]; [rewrite Z; apply in_app_iff; simpl; auto|].
        exists G, GB. split; auto. split; auto. right.
        apply in_split in X3 as [y [z ->]]. exists [], y, z. auto.
    + subst. destruct (IHtrs I2 Y1 a q l2 b r l3) as (GA & GB & HA & HB & O).
      { rewrite <- !app_assoc. auto. }
      exists GA, GB. split; auto. split; auto. destruct O as [O|(x & y & z & ->)]; auto.
      right. exists (G :: x), y, z. auto.
Qed.

Lemma group_order l1 a q l2 b r l3 :
  gr_matches g' = l1 ++ (a, q) :: l2 ++ (b, r) :: l3 ->
  exists GA GB, ugroup h a = Some GA /\ ugroup h b = Some GB /\
    (GA = GB \/ exists x y z, gr_req h = x ++ GA :: y ++ GB :: z).
Proof.
  intros E. destruct the_run as [T _].
  apply (trs_order _ _ _ T (fun x H => H) l1 a q l2 b r l3). auto.
Qed.

End P.

(** ** The same statements about the graph before conditioning *)
Section Q.
Variables (fd : Q -> Q -> Q) (eps tol : Q) (w : option weights) (g : graph).
Hypothesis FD : fd_ok fd tol.
Hypothesis TE : tol <= eps.
Hypothesis WB : well_built fd g.
Variable g' : graph.
Hypothesis SV : solve fd eps w g = Ok g'.

Let h := conditioned w g.
Let SM : same g h := cond_same w g.
Let ms := gr_matches g'.

Lemma req_h G : In G (gr_req g) -> In G (gr_req h).
Proof. apply Permutation_in. symmetry. apply SM. Qed.

Lemma sup_bound_g G i c U : nth_error (g_caps (group_at g G)) i = Some (Some c) -> 0 <= U ->
  (forall a, In a (gr_arcs g) -> vgroup g a = Some G -> vunit g a i <= U) ->
  vload g ms G i <= c + tol * U.
Proof.
  intros Hc HU HA. rewrite <- (same_vload g h SM).
  apply (sup_bound fd eps tol w g FD TE WB g' SV); auto.
  - fold h. now rewrite (sm_caps _ _ SM).
  - intros a. fold h. rewrite (sm_arcs _ _ SM), (same_vgroup g h SM), (same_vunit g h SM). auto.
Qed.

Lemma sup_bound_exact G i c : tol == 0 -> nth_error (g_caps (group_at g G)) i = Some (Some c) ->
  vload g ms G i <= c.
Proof.
  intros T Hc.
  set (us := map (fun a => vunit g a i) (gr_arcs g)).
  assert (exists U, 0 <= U /\ forall x, In x us -> x <= U) as [U [HU X]].
  { clear. induction us as [|x l [U [HU X]]]; [exists 0; split; [lra|intros x []]|].
    exists (Qmax U x). split; [apply Qle_trans with U; auto; apply Q.le_max_l|].
    intros y [<-|Hy]; [apply Q.le_max_r|]. apply Qle_trans with U; auto. apply Q.le_max_l. }
  assert (B : vload g ms G i <= c + tol * U).
  { apply sup_bound_g; auto. intros a Ha _. apply X. unfold us. apply in_map_iff. eauto. }
  rewrite T in B. lra.
Qed.

Lemma req_bound_g G : g_caps (group_at g G) <> [] ->
  exists i c, nth_error (g_caps (group_at g G)) i = Some c /\
    forall y U, c = Some y -> 0 <= U ->
      (forall a, In a (gr_arcs g) -> ugroup g a = Some G -> uunit g a i <= U) ->
      uload g ms G i <= y + tol * U.
Proof.
  intros HG. destruct (req_bound fd eps tol w g FD TE WB g' SV G) as [i [c [Hc B]]].
  { fold h. now rewrite (sm_caps _ _ SM). }
  fold h in Hc. rewrite (sm_caps _ _ SM) in Hc. exists i, c. split; auto.
  intros y U E HU HA. rewrite <- (same_uload g h SM). apply B; auto.
  intros a. fold h. rewrite (sm_arcs _ _ SM), (same_ugroup g h SM), (same_uunit g h SM). auto.
Qed.

Lemma req_bound_single G c U : g_caps (group_at g G) = [Some c] -> 0 <= U ->
  (forall a, In a (gr_arcs g) -> ugroup g a = Some G -> uunit g a 0 <= U) ->
  uload g ms G 0 <= c + tol * U.
Proof.
  intros E HU HA. destruct (req_bound_g G) as [i [x [Hx B]]]; [congruence|].
  rewrite E in Hx. destruct i as [|[|i]]; try discriminate. injection Hx as <-. eauto.
Qed.

Lemma node_bound_g n : on_unode ms n <= n_qty (node_at g n) + tol /\
                       on_vnode ms n <= n_qty (node_at g n) + tol.
Proof.
  pose proof (node_bound fd eps tol w g FD TE WB g' SV n) as B.
  fold h in B. rewrite (same_node_at _ _ SM) in B. auto.
Qed.

Lemma group_bound_g G : In G (gr_req g) -> on_group g ms G <= g_qty (group_at g G) + tol.
Proof.
  intros HG. rewrite <- (same_on_group g h SM), <- (sm_qty _ _ SM).
  apply (group_bound fd eps tol w g FD TE WB g' SV). apply req_h. auto.
Qed.

Lemma match_real a q : In (a, q) ms -> In a (gr_arcs g) /\ eps < q.
Proof.
  intros H. apply (run_good fd eps tol w g FD TE WB g' SV) in H.
  fold h in H. rewrite (sm_arcs _ _ SM) in H. auto.
Qed.

Lemma excl_match a q : In (a, q) ms -> a_excl a = true ->
  (n_excl (unode g a) = true -> q = n_qty (unode g a)) /\
  (n_excl (unode g a) = false -> q = n_qty (vnode g a)) /\
  (n_excl (vnode g a) = true -> Qabs (q - n_qty (vnode g a)) <= tol).
Proof.
  intros H X. pose proof (match_real a q H) as [Ha P].
  pose proof (excl_run fd eps tol w g FD TE WB g' SV a q H X) as E. subst q.
  assert (tol0 : 0 <= tol) by apply FD.
  assert (Ha' : In a (gr_arcs h)) by (rewrite (sm_arcs _ _ SM); auto).
  rewrite <- (same_unode g h SM), <- (same_vnode g h SM).
  pose proof (arc_nonexcl fd w g WB a Ha') as XX. fold h in XX.
  split; [|split].
  - intros U. destruct (arc_excl_u fd w g WB a Ha' U) as [_ V]; auto. lra.
  - intros U. rewrite U in XX. simpl in XX.
    destruct (arc_excl_v fd tol w g FD WB a Ha') as (_ & V & _); [fold h; congruence|lra|].
    apply V. auto.
  - intros V. destruct (arc_excl_v fd tol w g FD WB a Ha' V) as (_ & _ & V1 & V2); [lra|].
    fold h in V1, V2. apply Qabs_Qle_condition. split; lra.
Qed.

Lemma excl_once_u m1 a q m2 b r m3 : ms = m1 ++ (a, q) :: m2 ++ (b, r) :: m3 ->
  a_u a = a_u b -> n_excl (unode g a) = false.
Proof.
  intros E U. rewrite <- (same_unode g h SM).
  apply (once_u_run fd eps tol w g FD TE WB g' SV _ _ _ _ _ _ _ E U).
Qed.

Lemma excl_once_v m1 a q m2 b r m3 : 2 * tol <= eps ->
  ms = m1 ++ (a, q) :: m2 ++ (b, r) :: m3 -> a_v a = a_v b -> n_excl (vnode g a) = false.
Proof.
  intros T2 E U. rewrite <- (same_vnode g h SM).
  apply (once_v_run fd eps tol w g FD TE WB g' SV T2 _ _ _ _ _ _ _ E U).
Qed.

Lemma arc_group a : In a (gr_arcs g) -> exists G, ugroup g a = Some G /\ In G (gr_req g).
Proof. intros Ha. destruct (wb_arc _ _ WB a Ha) as (GU & _ & A & B & _). eauto. Qed.

Lemma in_mid {A} (l1 l2 : list A) x : In x (l1 ++ x :: l2).
Proof. apply in_app_iff. simpl. auto. Qed.

Lemma order_g l1 a q l2 b r l3 : ms = l1 ++ (a, q) :: l2 ++ (b, r) :: l3 ->
  ugroup g a = ugroup g b ->
  avg_pref (unode g b) <= avg_pref (unode g a) /\
  (a_u a = a_u b -> pref_of (unode g b) b <= pref_of (unode g a) a).
Proof.
  intros E HG. assert (Ha : In (a, q) ms) by (rewrite E; apply in_mid).
  apply match_real in Ha as [Ha _]. destruct (arc_group a Ha) as [G [GA IG]].
  pose proof (order_lemma fd eps tol w g FD TE WB g' SV G l1 a q l2 b r l3) as O.
  unfold before in O. fold h in O.
  rewrite (same_ugroup g h SM), (same_ugroup g h SM), !(same_unode g h SM) in O.
  apply O; auto; [apply req_h; auto|congruence].
Qed.

Lemma group_order_g l1 a q l2 b r l3 : ms = l1 ++ (a, q) :: l2 ++ (b, r) :: l3 ->
  exists GA GB, ugroup g a = Some GA /\ ugroup g b = Some GB /\
    (GA = GB \/ exists x y z, gr_req g' = x ++ GA :: y ++ GB :: z).
Proof.
  intros E. destruct (group_order fd eps tol w g FD TE WB g' SV _ _ _ _ _ _ _ E)
    as (GA & GB & A & B & O).
  fold h in A, B. rewrite (same_ugroup g h SM) in A, B.
  destruct (the_run fd eps tol w g FD TE WB g' SV) as [_ R].
  exists GA, GB. rewrite R. auto.
Qed.

Lemma group_weight_order ws l1 a q l2 b r l3 GA GB : w = Some ws ->
  ms = l1 ++ (a, q) :: l2 ++ (b, r) :: l3 -> ugroup g a = Some GA -> ugroup g b = Some GB ->
  group_weight ws g GB <= group_weight ws g GA.
Proof.
  intros W E HA HB. destruct (group_order_g _ _ _ _ _ _ _ E) as (GA' & GB' & A & B & O).
  assert (GA' = GA) by congruence. assert (GB' = GB) by congruence. subst GA' GB'.
  destruct O as [->|(x & y & z & O)]; [lra|].
  destruct (the_run fd eps tol w g FD TE WB g' SV) as [_ R]. rewrite R in O.
  pose proof (condition_groups_desc ws g) as SS. subst w. cbn [conditioned] in O. rewrite O in SS.
  exact (SS_split _ _ _ _ _ _ SS).
Qed.

Lemma spent_same l rem a : spent eps h l rem a ->
  if a_excl a then (exists q, In (a, q) l) \/ a_exclval a <= eps \/
                   ~ (a_exclval a <= rem /\ room g l a (a_exclval a))
  else forall q, eps < q -> q <= rem -> ~ room g l a q.
Proof.
  unfold spent. destruct (a_excl a).
  - rewrite (same_room g h SM). auto.
  - intros H q X Y R. apply (H q X Y). apply (same_room g h SM). auto.
Qed.

Lemma first_choice_g l1 b r l2 a G : ms = l1 ++ (b, r) :: l2 ->
  In a (gr_arcs g) -> ugroup g a = Some G -> ugroup g b = Some G ->
  (avg_pref (unode g b) < avg_pref (unode g a) \/
   (a_u a = a_u b /\ pref_of (unode g b) b < pref_of (unode g a) a)) ->
  if a_excl a then (exists q, In (a, q) l1) \/ a_exclval a <= eps \/
       ~ (a_exclval a <= g_qty (group_at g G) - on_group g l1 G /\ room g l1 a (a_exclval a))
  else forall q, eps < q -> q <= g_qty (group_at g G) - on_group g l1 G -> ~ room g l1 a q.
Proof.
  intros E Ha GA GB BT. apply spent_same.
  destruct (arc_group a Ha) as [G' [GA' IG]]. assert (G' = G) by congruence. subst G'.
  rewrite <- (same_on_group g h SM), <- (sm_qty _ _ SM).
  apply (first_choice fd eps tol w g FD TE WB g' SV) with (b := b) (r := r) (l2 := l2); fold h; auto.
  - apply req_h; auto.
  - now rewrite (same_ugroup g h SM).
  - now rewrite (sm_arcs _ _ SM).
  - now rewrite (same_ugroup g h SM).
  - unfold before. fold h. rewrite !(same_unode g h SM). intros [X Y].
    destruct BT as [BT|[U BT]]; [lra|]. specialize (Y (eq_sym U)). lra.
Qed.

Lemma exhausted_g a G : In a (gr_arcs g) -> ugroup g a = Some G ->
  on_group g ms G <= g_qty (group_at g G) ->
  if a_excl a then (exists q, In (a, q) ms) \/ a_exclval a <= eps \/
       ~ (a_exclval a <= g_qty (group_at g G) - on_group g ms G /\ room g ms a (a_exclval a))
  else forall q, eps < q -> q <= g_qty (group_at g G) - on_group g ms G -> ~ room g ms a q.
Proof.
  intros Ha GA L. apply spent_same.
  destruct (arc_group a Ha) as [G' [GA' IG]]. assert (G' = G) by congruence. subst G'.
  rewrite <- (same_on_group g h SM), <- (sm_qty _ _ SM).
  apply (exhausted fd eps tol w g FD TE WB g' SV); fold h.
  - apply req_h; auto.
  - now rewrite (same_on_group g h SM), (sm_qty _ _ SM).
  - now rewrite (sm_arcs _ _ SM).
  - now rewrite (same_ugroup g h SM).
Qed.

End Q.
