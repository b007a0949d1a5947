(** Consequences of the greedy trace: capacities, quantities, exclusivity, order
    and exhaustion. *)
From Coq Require Import QArith List Bool Arith ZArith Lia Lqa Permutation Sorted Qabs.
From Verif Require Import Base GreedyModel GreedySpec GreedyProofs1 GreedyProofs2.
Import ListNotations.
Open Scope Q_scope.

Section P.
Variables (fd : Q -> Q -> Q) (eps tol : Q) (g : graph).
Hypothesis FD : fd_ok fd tol.
Hypothesis TE : tol <= eps.
Hypothesis WB : well_built fd g.

Let tol0 : 0 <= tol. Proof. apply FD. Qed.

Notation tr := (tr eps tol g).
Notation trs := (trs eps tol g).
Notation takes := (takes eps tol g).
Notation skips := (skips eps g).

(** Matches in the trace come from arcs and are larger than eps. *)
Definition good (ms : list (arc * Q)) : Prop :=
  forall a q, In (a, q) ms -> In a (gr_arcs g) /\ eps < q.

(** Induction principle: a property of the list of matches kept by every step. *)
Lemma tr_keeps (P : list (arc * Q) -> Prop) :
  (forall ms rem a q, good ms -> P ms -> In a (gr_arcs g) -> takes ms rem a q ->
     P (ms ++ [(a, q)])) ->
  forall target l m ms m' ms', tr target l m ms m' ms' -> good ms -> P ms -> good ms' /\ P ms'.
Proof.
  intros S. induction 1; intros G0 P0; auto.
  apply IHtr; [|eapply S; eauto].
  intros b r Hb. apply in_app_iff in Hb as [Hb|[Hb|[]]]; auto. injection Hb as <- <-.
  split; auto. apply H1.
Qed.

Lemma trs_keeps (P : list (arc * Q) -> Prop) :
  (forall ms rem a q, good ms -> P ms -> In a (gr_arcs g) -> takes ms rem a q ->
     P (ms ++ [(a, q)])) ->
  forall Gs ms ms', trs Gs ms ms' -> good ms -> P ms -> good ms' /\ P ms'.
Proof.
  intros S. induction 1; intros G0 P0; auto.
  destruct (tr_keeps P S _ _ _ _ _ _ H); auto.
Qed.

(** A taken quantity has room up to the tolerance. *)
Lemma takes_room ms rem a q : takes ms rem a q ->
  exists t, t <= rem /\ room g ms a t /\ q <= t + tol.
Proof.
  intros [_ H]. destruct (a_excl a); [tauto|]. destruct H as (A & B & _).
  exists q. split; auto. split; auto. lra.
Qed.

Lemma takes_pos ms rem a q : takes ms rem a q -> eps < q.
Proof. intros [H _]; auto. Qed.

Lemma unit_pos l i : Forall (fun x => 0 < x) l -> 0 <= nth i l 0.
Proof.
  intros F. destruct (nth_in_or_default i l 0) as [H|H].
  - rewrite Forall_forall in F. apply F in H. lra.
  - rewrite H. lra.
Qed.

Lemma vunit_pos a i : In a (gr_arcs g) -> 0 <= vunit g a i.
Proof.
  intros Ha. destruct (wb_arc _ _ WB a Ha) as (GU & GV & _ & _ & _ & _ & _ & _ & _ & _ & _ & P & _).
  apply unit_pos; auto.
Qed.
Lemma uunit_pos a i : In a (gr_arcs g) -> 0 <= uunit g a i.
Proof.
  intros Ha. destruct (wb_arc _ _ WB a Ha) as (GU & GV & _ & _ & _ & _ & _ & _ & _ & _ & P & _ & _).
  apply unit_pos; auto.
Qed.

Lemma is_group_eq o G : is_group o G = true -> o = Some G.
Proof. destruct o; simpl; [|discriminate]. intros H. apply Nat.eqb_eq in H. congruence. Qed.

(** ** Supply constraints *)
Definition vbound (ms : list (arc * Q)) : Prop :=
  forall G i c U, nth_error (g_caps (group_at g G)) i = Some (Some c) ->
    0 <= U -> (forall a, In a (gr_arcs g) -> vgroup g a = Some G -> vunit g a i <= U) ->
    vload g ms G i <= c + tol * U.

Lemma vbound_step ms rem a q : vbound ms -> In a (gr_arcs g) -> takes ms rem a q ->
  vbound (ms ++ [(a, q)]).
Proof.
  intros B Ha T G i c U Hc HU HA. unfold vload. rewrite sum_over_snoc. fold (vload g ms G i).
  specialize (B G i c U Hc HU HA). destruct (is_group (vgroup g a) G) eqn:E; [|lra].
  apply is_group_eq in E. destruct (takes_room _ _ _ _ T) as [t [_ [R Q1]]].
  destruct R as (_ & _ & R & _). specialize (R G i (Some c) E Hc). simpl in R.
  pose proof (vunit_pos a i Ha). specialize (HA a Ha E).
  assert (q * vunit g a i <= t * vunit g a i + tol * vunit g a i).
  { rewrite <- Qmult_plus_distr_l. apply Qmult_le_compat_r; auto. }
  assert (tol * vunit g a i <= tol * U).
  { rewrite !(Qmult_comm tol). apply Qmult_le_compat_r; auto. }
  lra.
Qed.

(** ** Request constraints: at least one holds *)
Definition ubound (ms : list (arc * Q)) : Prop :=
  forall G, g_caps (group_at g G) <> [] ->
    exists i c, nth_error (g_caps (group_at g G)) i = Some c /\
      forall y U, c = Some y -> 0 <= U ->
        (forall a, In a (gr_arcs g) -> ugroup g a = Some G -> uunit g a i <= U) ->
        uload g ms G i <= y + tol * U.

Lemma ubound_step ms rem a q : ubound ms -> In a (gr_arcs g) -> takes ms rem a q ->
  ubound (ms ++ [(a, q)]).
Proof.
  intros B Ha T G HG. destruct (is_group (ugroup g a) G) eqn:E.
  - apply is_group_eq in E. destruct (takes_room _ _ _ _ T) as [t [_ [R Q1]]].
    destruct R as (_ & _ & _ & R). destruct (R G E HG) as [i [c [Hc W]]].
    exists i, c. split; auto. intros y U -> HU HA. simpl in W.
    unfold uload. rewrite sum_over_snoc. fold (uload g ms G i). rewrite E, is_group_refl.
    pose proof (uunit_pos a i Ha). specialize (HA a Ha E).
    assert (q * uunit g a i <= t * uunit g a i + tol * uunit g a i).
    { rewrite <- Qmult_plus_distr_l. apply Qmult_le_compat_r; auto. }
    assert (tol * uunit g a i <= tol * U).
    { rewrite !(Qmult_comm tol). apply Qmult_le_compat_r; auto. }
    lra.
  - destruct (B G HG) as [i [c [Hc W]]]. exists i, c. split; auto.
    intros y U Hy HU HA. specialize (W y U Hy HU HA).
    unfold uload. rewrite sum_over_snoc. fold (uload g ms G i). rewrite E. lra.
Qed.

(** ** Node quantities *)
Definition nbound (ms : list (arc * Q)) : Prop :=
  forall n, on_unode ms n <= n_qty (node_at g n) + tol /\ on_vnode ms n <= n_qty (node_at g n) + tol.

Lemma nbound_step ms rem a q : nbound ms -> In a (gr_arcs g) -> takes ms rem a q ->
  nbound (ms ++ [(a, q)]).
Proof.
  intros B Ha T n. destruct (B n) as [B1 B2].
  destruct (takes_room _ _ _ _ T) as [t [_ [(R1 & R2 & _) Q1]]].
  unfold on_unode, on_vnode. rewrite !sum_over_snoc.
  fold (on_unode ms n) (on_vnode ms n). unfold unode, vnode in *. split.
  - destruct (Nat.eqb_spec (a_u a) n); [subst; lra|lra].
  - destruct (Nat.eqb_spec (a_v a) n); [subst; lra|lra].
Qed.

(** ** Request group quantities *)
Lemma tr_app_ms target l m ms m' ms' : tr target l m ms m' ms' ->
  exists new, ms' = ms ++ new /\ m' == m + sum_over new (fun _ q => q) /\
    (forall a q, In (a, q) new -> In a l /\ In a (gr_arcs g) /\ eps < q).
Proof.
  induction 1.
  - exists []. rewrite app_nil_r. split; auto. split; [unfold sum_over; simpl; lra|]. intros ? ? [].
  - exists []. rewrite app_nil_r. split; auto. split; [unfold sum_over; simpl; lra|]. intros ? ? [].
  - destruct IHtr as [new [E [M S]]]. exists new. split; auto. split; auto.
    intros b r Hb. apply S in Hb. simpl. tauto.
  - destruct IHtr as [new [E [M S]]]. exists ((a, q) :: new).
    rewrite E, <- app_assoc. split; auto. split.
    + rewrite M. unfold sum_over. simpl. ring.
    + intros b r [Hb|Hb].
      * injection Hb as <- <-. split; [left; auto|]. split; auto. apply H1.
      * apply S in Hb. simpl. tauto.
Qed.

Lemma tr_target target l m ms m' ms' : tr target l m ms m' ms' ->
  m <= target + tol -> m' <= target + tol.
Proof.
  induction 1; intros HM; auto. apply IHtr.
  destruct (takes_room _ _ _ _ H1) as [t [X [_ Y]]]. lra.
Qed.

Lemma order_group G a : In G (gr_req g) -> In a (order g G) ->
  In a (gr_arcs g) /\ ugroup g a = Some G /\ In (a_u a) (g_nodes (group_at g G)).
Proof.
  intros HG H. unfold order, order_of in H. apply in_flat_map in H as [n [Hn H]].
  apply sort_In in Hn. apply sort_In in H. apply arcs_of_In in H as [Ha H]. split; auto.
  pose proof (wb_req _ _ WB G n HG Hn) as HN.
  destruct H as [<-|<-]; [unfold ugroup, unode; auto|].
  exfalso. destruct (wb_arc _ _ WB a Ha) as (_ & GV & _ & _ & _ & HV & IV & _).
  unfold vgroup, vnode in HV. assert (G = GV) by congruence. subst.
  eapply (wb_disj _ _ WB); eauto.
Qed.

Lemma order_complete G a : In a (gr_arcs g) -> ugroup g a = Some G -> In a (order g G).
Proof.
  intros Ha HG. destruct (wb_arc _ _ WB a Ha) as (GU & _ & HU & _ & N & _).
  assert (GU = G) by congruence. subst. unfold order, order_of. apply in_flat_map.
  exists (a_u a). split; [apply sort_In; auto|]. apply sort_In. apply arcs_of_In2. auto.
Qed.

Lemma on_group_app ms new G : on_group g (ms ++ new) G == on_group g ms G + on_group g new G.
Proof. apply sum_over_app. Qed.

Lemma on_group_new G new : In G (gr_req g) ->
  (forall a q, In (a, q) new -> In a (order g G)) ->
  on_group g new G == sum_over new (fun _ q => q).
Proof.
  intros HG. unfold on_group, sum_over. induction new as [|[a q] t IH]; intros H; [reflexivity|].
  cbn [map qsum fst snd].
  destruct (order_group G a HG) as (_ & E & _); [eapply H; left; eauto|].
  rewrite E, is_group_refl, IH; [reflexivity|]. intros b r Hb. eapply H. right; eauto.
Qed.

Lemma on_group_other G H new : In H (gr_req g) -> G <> H ->
  (forall a q, In (a, q) new -> In a (order g H)) -> on_group g new G == 0.
Proof.
  intros HH N A. apply sum_over_zero. intros a q Hin. apply A in Hin.
  apply order_group in Hin as (_ & E & _); auto. rewrite E.
  rewrite is_group_ne by congruence. reflexivity.
Qed.

Lemma trs_rest Gs ms ms' : trs Gs ms ms' -> incl Gs (gr_req g) -> forall K, ~ In K Gs ->
  exists rest, ms' = ms ++ rest /\ on_group g rest K == 0.
Proof.
  induction 1 as [ms|G Gs m ms ms1 ms2 TG TR IHT]; intros I2 K HK.
  - exists []. rewrite app_nil_r. split; auto. reflexivity.
  - destruct (IHT) with (K := K) as [rest [E R]].
    + intros x Hx; apply I2; right; auto.
    + intros X; apply HK; right; auto.
    + destruct (tr_app_ms _ _ _ _ _ _ TG) as [new [E' [_ S]]].
      exists (new ++ rest). rewrite app_assoc, <- E'. split; auto.
      rewrite on_group_app, R, (on_group_other K G); try lra.
      * apply I2; left; auto.
      * intros ->. apply HK. left; auto.
      * intros a q X. apply S in X. tauto.
Qed.

(** What happens to group [G] in a run over the groups [Gs]: its matches are made
    in one contiguous trace starting from [m = 0]. *)
Lemma trs_split Gs : forall ms ms', trs Gs ms ms' -> incl Gs (gr_req g) -> NoDup Gs ->
  (forall G, In G Gs -> on_group g ms G == 0) ->
  forall G, In G Gs -> exists ms1 new ms2 m,
    ms' = ms ++ ms1 ++ new ++ ms2 /\
    tr (g_qty (group_at g G)) (order g G) 0 (ms ++ ms1) m (ms ++ ms1 ++ new) /\
    (forall a q, In (a, q) new -> In a (order g G)) /\
    m == on_group g new G /\ on_group g (ms ++ ms1) G == 0 /\ on_group g ms2 G == 0.
Proof.
  induction Gs as [|H Gs IH]; intros ms ms' T I ND Z G HG; [destruct HG|].
  inversion T as [|? ? m ? ms1 ? TG TR]; subst. inversion ND as [|? ? NI ND']; subst.
  destruct (tr_app_ms _ _ _ _ _ _ TG) as [new [E [M S]]].
  assert (IH' : In H (gr_req g)) by (apply I; left; auto).
  assert (Snew : forall a q, In (a, q) new -> In a (order g H)) by (intros a q X; apply S in X; tauto).
  destruct HG as [<-|HG].
  - destruct (trs_rest Gs ms1 ms' TR) with (K := H) as [rest [ER ZR]]; auto.
    { intros x Hx; apply I; right; auto. }
    exists [], new, rest, m. rewrite app_nil_r. simpl. rewrite <- E.
    split; [rewrite ER, E, <- app_assoc; auto|]. split; auto. split; auto.
    split; [|split; auto].
    + rewrite M, (on_group_new H); auto. ring.
    + apply Z. left; auto.
  - assert (N : G <> H) by (intros ->; auto).
    destruct (IH ms1 ms' TR) with (G := G) as (m1 & nw & m2 & mm & A & B & C & D & F & K).
    + intros x Hx; apply I; right; auto.
    + auto.
    + intros K HK.
      assert (X : on_group g new K == 0) by (apply (on_group_other K H); auto; intros ->; auto).
      assert (Y : on_group g ms K == 0) by (apply Z; right; auto).
      rewrite E, on_group_app, X, Y. lra.
    + auto.
    + rewrite E in A, B, F. exists (new ++ m1), nw, m2, mm.
      rewrite <- !app_assoc in *. auto 10.
Qed.

(** ** Exhaustion *)
Lemma room_mono ms new a q : good new -> In a (gr_arcs g) -> room g (ms ++ new) a q -> room g ms a q.
Proof.
  intros GN Ha (A & B & C & D).
  assert (E0 : 0 <= eps) by lra.
  assert (PU : 0 <= on_unode new (a_u a)).
  { apply sum_over_nonneg. intros b r Hb. apply GN in Hb. destruct (Nat.eqb _ _); lra. }
  assert (PV : 0 <= on_vnode new (a_v a)).
  { apply sum_over_nonneg. intros b r Hb. apply GN in Hb. destruct (Nat.eqb _ _); lra. }
  unfold on_unode in A. rewrite sum_over_app in A. fold (on_unode ms (a_u a)) (on_unode new (a_u a)) in A.
  unfold on_vnode in B. rewrite sum_over_app in B. fold (on_vnode ms (a_v a)) (on_vnode new (a_v a)) in B.
  split; [lra|]. split; [lra|]. split.
  - intros G i c HG Hc. specialize (C G i c HG Hc).
    destruct c as [y|]; simpl in *; auto.
    unfold vload in C. rewrite sum_over_app in C. fold (vload g ms G i) (vload g new G i) in C.
    assert (0 <= vload g new G i); [|lra].
    apply sum_over_nonneg. intros b r Hb. apply GN in Hb as [Hb Hr].
    destruct (is_group _ _); [|lra]. apply Qmult_le_0_compat; [lra|apply vunit_pos; auto].
  - intros G HG Hc. destruct (D G HG Hc) as [i [c [Hi W]]]. exists i, c. split; auto.
    destruct c as [y|]; simpl in *; auto.
    unfold uload in W. rewrite sum_over_app in W. fold (uload g ms G i) (uload g new G i) in W.
    assert (0 <= uload g new G i); [|lra].
    apply sum_over_nonneg. intros b r Hb. apply GN in Hb as [Hb Hr].
    destruct (is_group _ _); [|lra]. apply Qmult_le_0_compat; [lra|apply uunit_pos; auto].
Qed.

Lemma room_down ms a q q' : In a (gr_arcs g) -> q' <= q -> room g ms a q -> room g ms a q'.
Proof.
  intros Ha L (A & B & C & D). split; [lra|]. split; [lra|]. split.
  - intros G i c HG Hc. specialize (C G i c HG Hc). destruct c; simpl in *; auto.
    assert (q' * vunit g a i <= q * vunit g a i) by (apply Qmult_le_compat_r; auto using vunit_pos).
    lra.
  - intros G HG Hc. destruct (D G HG Hc) as [i [c [Hi W]]]. exists i, c. split; auto.
    destruct c; simpl in *; auto.
    assert (q' * uunit g a i <= q * uunit g a i) by (apply Qmult_le_compat_r; auto using uunit_pos).
    lra.
Qed.

Lemma room_after ms a q q' : In a (gr_arcs g) -> room g (ms ++ [(a, q)]) a q' -> room g ms a (q + q').
Proof.
  intros Ha (A & B & C & D).
  unfold on_unode in A. rewrite sum_over_snoc, Nat.eqb_refl in A. fold (on_unode ms (a_u a)) in A.
  unfold on_vnode in B. rewrite sum_over_snoc, Nat.eqb_refl in B. fold (on_vnode ms (a_v a)) in B.
  split; [lra|]. split; [lra|]. split.
  - intros G i c HG Hc. specialize (C G i c HG Hc). destruct c; simpl in *; auto.
    unfold vload in C. rewrite sum_over_snoc, HG, is_group_refl in C. fold (vload g ms G i) in C. lra.
  - intros G HG Hc. destruct (D G HG Hc) as [i [c [Hi W]]]. exists i, c. split; auto.
    destruct c; simpl in *; auto.
    unfold uload in W. rewrite sum_over_snoc, HG, is_group_refl in W. fold (uload g ms G i) in W. lra.
Qed.

(** With [rem] still wanted, nothing above eps can be added on [a] (divisible), or
    the whole order cannot be added (exclusive). *)
Definition spent (ms : list (arc * Q)) (rem : Q) (a : arc) : Prop :=
  if a_excl a then
    (exists q, In (a, q) ms) \/ a_exclval a <= eps \/
    ~ (a_exclval a <= rem /\ room g ms a (a_exclval a))
  else forall q, eps < q -> q <= rem -> ~ room g ms a q.

Lemma spent_mono ms new rem rem' a : good new -> In a (gr_arcs g) -> rem' <= rem ->
  spent ms rem a -> spent (ms ++ new) rem' a.
Proof.
  intros GN Ha L. unfold spent. destruct (a_excl a).
  - intros [[q H]|[H|H]]; auto.
    + left. exists q. apply in_app_iff. auto.
    + right; right. intros [X Y]. apply H. split; [lra|]. eapply room_mono; eauto.
  - intros H q X Y R. apply (H q); auto; [lra|]. eapply room_mono; eauto.
Qed.

Lemma skips_spent ms rem a : skips ms rem a -> spent ms rem a.
Proof.
  unfold spent, GreedyProofs2.skips. destruct (a_excl a); auto.
  intros H q X Y R. assert (q <= eps) by auto. lra.
Qed.

Lemma takes_spent ms rem a q : In a (gr_arcs g) -> takes ms rem a q ->
  spent (ms ++ [(a, q)]) (rem - q) a.
Proof.
  intros Ha [Hq H]. unfold spent. destruct (a_excl a).
  - left. exists q. apply in_app_iff. simpl. auto.
  - destruct H as (A & B & C). intros q' X Y R. apply room_after in R; auto.
    assert (q + q' <= q) by (apply C; auto; lra). lra.
Qed.

(** Every arc of the order is spent when the trace ends with something wanted, and
    when an arc is matched all the arcs before it in the order are spent. *)
Lemma tr_spent target l m ms m' ms' : tr target l m ms m' ms' -> m' <= target ->
  forall a, In a l -> spent ms' (target - m') a.
Proof.
  induction 1; intros HM b Hb.
  - destruct Hb.
  - lra.
  - destruct (tr_app_ms _ _ _ _ _ _ H2) as [new [E [M S]]].
    destruct Hb as [<-|Hb]; [|apply IHtr; auto].
    rewrite E. apply spent_mono with (rem := target - m); auto.
    + intros x y Hx. apply S in Hx. tauto.
    + assert (0 <= sum_over new (fun _ q => q)); [|lra].
      apply sum_over_nonneg. intros x y Hx. apply S in Hx. lra.
    + apply skips_spent; auto.
  - destruct (tr_app_ms _ _ _ _ _ _ H2) as [new [E [M S]]].
    destruct Hb as [<-|Hb]; [|apply IHtr; auto].
    rewrite E. apply spent_mono with (rem := target - m - q); auto.
    + intros x y Hx. apply S in Hx. tauto.
    + assert (0 <= sum_over new (fun _ q => q)); [|lra].
      apply sum_over_nonneg. intros x y Hx. apply S in Hx. lra.
    + apply takes_spent; auto.
Qed.

Lemma tr_before target l m ms m' ms' : tr target l m ms m' ms' ->
  forall n1 b qb n2, ms' = ms ++ n1 ++ (b, qb) :: n2 ->
  exists l1 l2, l = l1 ++ b :: l2 /\
    (forall a, In a l1 -> spent (ms ++ n1) (target - (m + sum_over n1 (fun _ q => q))) a) /\
    (forall a q, In (a, q) n1 -> In a l1).
Proof.
  assert (SN : forall n1 n2 : list (arc * Q), forall ms : list (arc * Q),
    ms = ms ++ n1 ++ n2 -> n1 ++ n2 = []).
  { intros n1 n2 x E. rewrite <- (app_nil_r x) in E at 1. apply app_inv_head in E. auto. }
  induction 1; intros n1 b qb n2 E.
  - apply SN in E. destruct n1; discriminate.
  - apply SN in E. destruct n1; discriminate.
  - destruct (IHtr n1 b qb n2 E) as [l1 [l2 [El [Sp St]]]].
    exists (a :: l1), l2. split; [rewrite El; auto|]. split.
    + intros x [<-|Hx]; auto.
      assert (GN : forall y r, In (y, r) n1 -> In y (gr_arcs g) /\ eps < r).
      { destruct (tr_app_ms _ _ _ _ _ _ H2) as [new [E' [_ S]]]. rewrite E in E'.
        apply app_inv_head in E'. intros y r Hy. assert (In (y, r) new).
        { rewrite <- E'. apply in_app_iff. auto. } apply S in H3. tauto. }
      apply spent_mono with (rem := target - m); auto.
      * assert (0 <= sum_over n1 (fun _ q => q)); [|lra].
        apply sum_over_nonneg. intros y r Hy. apply GN in Hy. lra.
      * apply skips_spent; auto.
    + intros x r Hx. right. eauto.
  - destruct (tr_app_ms _ _ _ _ _ _ H2) as [new [E' [_ S]]].
    rewrite E in E'. rewrite <- app_assoc in E'. apply app_inv_head in E'. simpl in E'.
    destruct n1 as [|[x r] n1]; simpl in E'; injection E' as E1 E2 E3.
    + subst. exists [], l. split; auto. split; [intros y []|intros y r []].
    + subst x r.
      destruct (IHtr n1 b qb n2) as [l1 [l2 [El [Sp St]]]].
      { rewrite E. rewrite <- app_assoc. simpl. auto. }
      exists (a :: l1), l2. split; [rewrite El; auto|].
      assert (GN : forall y r, In (y, r) n1 -> In y (gr_arcs g) /\ eps < r).
      { intros y r Hy. assert (In (y, r) new).
        { rewrite <- E3. apply in_app_iff. auto. } apply S in H3. tauto. }
      split.
      * intros y [<-|Hy].
        -- replace (ms ++ (a, q) :: n1) with ((ms ++ [(a, q)]) ++ n1)
             by (rewrite <- app_assoc; auto).
           apply spent_mono with (rem := target - m - q); auto.
           ++ assert (0 <= sum_over n1 (fun _ q => q)).
              { apply sum_over_nonneg. intros z r Hz. apply GN in Hz. lra. }
              unfold sum_over in *. simpl. lra.
           ++ apply takes_spent; auto.
        -- specialize (Sp y Hy). rewrite <- app_assoc in Sp. simpl in Sp.
           assert (EQ : target - (m + q + sum_over n1 (fun _ q0 => q0)) ==
                        target - (m + sum_over ((a, q) :: n1) (fun _ q0 => q0))).
           { unfold sum_over. simpl. ring. }
           clear - Sp EQ. unfold spent in *. destruct (a_excl y).
           ++ rewrite <- EQ. auto.
           ++ intros z A B. rewrite <- EQ in B. auto.
      * intros y r [Hy|Hy]; [injection Hy as <- <-; left; auto|right; eauto].
Qed.

End P.
