(** The solver follows an abstract greedy trace: every arc of the sorted order is
    offered the largest quantity for which there is room. *)
From Coq Require Import QArith List Bool Arith ZArith Lia Lqa Permutation Sorted.
From Verif Require Import Base GreedyModel GreedySpec GreedyProofs1.
Import ListNotations.
Open Scope Q_scope.

Lemma sum_over_snoc ms a q f : sum_over (ms ++ [(a, q)]) f == sum_over ms f + f a q.
Proof. unfold sum_over. rewrite map_app, qsum_app. simpl. ring. Qed.

Lemma sum_over_app ms ms2 f : sum_over (ms ++ ms2) f == sum_over ms f + sum_over ms2 f.
Proof. unfold sum_over. rewrite map_app, qsum_app. ring. Qed.

Lemma sum_over_nonneg ms f : (forall a q, In (a, q) ms -> 0 <= f a q) -> 0 <= sum_over ms f.
Proof.
  unfold sum_over. induction ms as [|[a q] t IH]; simpl; intros H; [lra|].
  assert (0 <= f a q) by auto. assert (0 <= qsum (map (fun p => f (fst p) (snd p)) t)) by auto. lra.
Qed.

Lemma sum_over_zero ms f : (forall a q, In (a, q) ms -> f a q == 0) -> sum_over ms f == 0.
Proof.
  unfold sum_over. induction ms as [|[a q] t IH]; simpl; intros H; [lra|].
  rewrite (H a q), IH; auto. lra.
Qed.

Definition rel (c x : option Q) (L : Q) : Prop :=
  match c, x with
  | None, None => True
  | Some c, Some r => r == c - L
  | _, _ => False
  end.

Lemma rel_within c x L y : rel c x L -> (within y x <-> within (L + y) c).
Proof. destruct c, x; simpl; try tauto. intros ->. split; intros; lra. Qed.

Section P.
Variables (fd : Q -> Q -> Q) (eps tol : Q) (g : graph).
Hypothesis FD : fd_ok fd tol.
Hypothesis TE : tol <= eps.
Hypothesis WB : well_built fd g.

Let tol0 : 0 <= tol. Proof. apply FD. Qed.

Record Inv (st : gst) : Prop := mkInv {
  iv_unq : forall a, In a (gr_arcs g) -> s_nq st (a_u a) == on_unode (s_ms st) (a_u a);
  iv_vnq : forall a, In a (gr_arcs g) -> s_nq st (a_v a) == on_vnode (s_ms st) (a_v a);
  iv_ulen : forall G, In G (gr_req g) -> length (s_caps st G) = length (g_caps (group_at g G));
  iv_vlen : forall G, In G (gr_sup g) -> length (s_caps st G) = length (g_caps (group_at g G));
  iv_ucap : forall G i c, In G (gr_req g) -> nth_error (g_caps (group_at g G)) i = Some c ->
    exists x, nth_error (s_caps st G) i = Some x /\ rel c x (uload g (s_ms st) G i);
  iv_vcap : forall G i c, In G (gr_sup g) -> nth_error (g_caps (group_at g G)) i = Some c ->
    exists x, nth_error (s_caps st G) i = Some x /\ rel c x (vload g (s_ms st) G i);
  iv_pos : forall a q, In (a, q) (s_ms st) -> eps < q;
  iv_in : forall a q, In (a, q) (s_ms st) -> In a (gr_arcs g) }.

Lemma nodes_ne a b : In a (gr_arcs g) -> In b (gr_arcs g) -> a_u a <> a_v b.
Proof.
  intros Ha Hb E.
  destruct (wb_arc _ _ WB a Ha) as (GU & _ & HU & IU & _).
  destruct (wb_arc _ _ WB b Hb) as (_ & GV & _ & _ & _ & HV & IV & _).
  unfold ugroup, unode in HU. unfold vgroup, vnode in HV. rewrite E in HU.
  assert (GU = GV) by congruence. subst. eapply (wb_disj _ _ WB); eauto.
Qed.

Lemma nth_ex {A B} (l : list A) (l' : list B) i x : length l = length l' ->
  nth_error l i = Some x -> exists y, nth_error l' i = Some y.
Proof.
  intros L H. destruct (nth_error l' i) eqn:E; eauto.
  apply nth_error_None in E. apply nth_error_lt in H. lia.
Qed.

Lemma arc_cap_spec st a : Inv st -> In a (gr_arcs g) ->
  exists c, arc_cap g st a = Ok c /\ okn c /\ forall q, nle q c <-> room g (s_ms st) a q.
Proof.
  intros HI Ha. destruct (wb_arc _ _ WB a Ha) as
    (GU & GV & HU & IU & NU & HV & IV & NV & LU & LV & PU & PV & EA).
  destruct (node_cap_spec g st (a_u a) a false GU) as [cu [Eu [Ou Su]]]; auto.
  { unfold unode in LU. rewrite LU. symmetry. apply (iv_ulen _ HI); auto. }
  destruct (node_cap_spec g st (a_v a) a true GV) as [cv [Ev [Ov Sv]]]; auto.
  { unfold vnode in LV. rewrite LV. symmetry. apply (iv_vlen _ HI); auto. }
  unfold arc_cap. rewrite Eu, Ev. eexists; split; [reflexivity|].
  split; [apply nmin_ok; auto|].
  intros q. rewrite nmin_le; auto. rewrite Su, Sv. unfold room.
  rewrite (iv_unq _ HI a Ha), (iv_vnq _ HI a Ha). unfold unode, vnode, uunit, vunit, unode, vnode.
  split.
  - intros [[X1 X2] [Y1 Y2]]. split; auto. split; auto. split.
    + intros G i c HG Hc. assert (G = GV) by congruence. subst G.
      destruct (iv_vcap _ HI GV i c IV Hc) as [x [Hx R]].
      apply (rel_within _ _ _ _ R). apply Y2. auto.
    + intros G HG Hc. assert (G = GU) by congruence. subst G.
      destruct X2 as [k [x [Hk W]]].
      { intros E. apply Hc. pose proof (iv_ulen _ HI GU IU) as L. rewrite E in L.
        destruct (g_caps (group_at g GU)); auto; discriminate. }
      destruct (nth_ex _ _ _ _ (iv_ulen _ HI GU IU) Hk) as [c Hc'].
      destruct (iv_ucap _ HI GU k c IU Hc') as [x' [Hx R]].
      assert (x' = x) by congruence. subst x'.
      exists k, c. split; auto. apply (rel_within _ _ _ _ R). auto.
  - intros (X1 & Y1 & Y2 & X2). split; split; auto.
    + intros Hc. destruct (X2 GU HU) as [i [c [Hi W]]].
      { intros E. apply Hc. pose proof (iv_ulen _ HI GU IU) as L. rewrite E in L.
        destruct (s_caps st GU); auto; discriminate. }
      destruct (iv_ucap _ HI GU i c IU Hi) as [x [Hx R]].
      exists i, x. split; auto. apply (rel_within _ _ _ _ R). auto.
    + intros k x Hk. destruct (nth_ex _ _ _ _ (iv_vlen _ HI GV IV) Hk) as [c Hc].
      destruct (iv_vcap _ HI GV k c IV Hc) as [x' [Hx R]].
      assert (x' = x) by congruence. subst x'.
      apply (rel_within _ _ _ _ R). eapply Y2; eauto.
Qed.

Lemma rel_step c x L q u : rel c x L ->
  rel c (match x with None => None | Some y => Some (y - q * u) end) (L + q * u).
Proof. destruct c, x; simpl; auto. intros ->. ring. Qed.

Lemma rel_ext c x L L' : L == L' -> rel c x L -> rel c x L'.
Proof. destruct c, x; simpl; auto. intros -> ->. reflexivity. Qed.

Lemma is_group_refl G : is_group (Some G) G = true.
Proof. simpl. apply Nat.eqb_refl. Qed.

Lemma is_group_ne o G : o <> Some G -> is_group o G = false.
Proof. destruct o; simpl; auto. intros H. apply Nat.eqb_neq. congruence. Qed.

Lemma do_match_spec st a q : Inv st -> In a (gr_arcs g) -> eps < q ->
  q <= n_qty (unode g a) + eps -> q <= n_qty (vnode g a) + eps ->
  exists st', do_match eps g st a q = Ok st' /\ Inv st' /\ s_ms st' = s_ms st ++ [(a, q)].
Proof.
  intros HI Ha Hq QU QV. destruct (wb_arc _ _ WB a Ha) as
    (GU & GV & HU & IU & NU & HV & IV & NV & LU & LV & PU & PV & EA).
  assert (GN : GU <> GV) by (intros ->; eapply (wb_disj _ _ WB); eauto).
  unfold do_match, update_cap.
  change (node_at g (a_u a)) with (unode g a) in *. change (node_at g (a_v a)) with (vnode g a) in *.
  change (n_group (unode g a)) with (ugroup g a). change (n_group (vnode g a)) with (vgroup g a).
  rewrite HU.
  destruct (take_caps_spec q (s_caps st GU) (ucaps_of (unode g a) a)) as [r1 [E1 [L1 S1]]].
  { rewrite LU. symmetry. apply (iv_ulen _ HI); auto. }
  rewrite E1. destruct (Qltb_spec (n_qty (unode g a) - q) (- eps)); [lra|].
  rewrite HV. cbn [s_caps s_nq s_ms].
  assert (EG : fset (s_caps st) GU r1 GV = s_caps st GV).
  { unfold fset. destruct (Nat.eqb_spec GV GU); congruence. }
  rewrite EG.
  destruct (take_caps_spec q (s_caps st GV) (ucaps_of (vnode g a) a)) as [r2 [E2 [L2 S2]]].
  { rewrite LV. symmetry. apply (iv_vlen _ HI); auto. }
  rewrite E2. destruct (Qltb_spec (n_qty (vnode g a) - q) (- eps)); [lra|].
  eexists. split; [reflexivity|]. split; [|reflexivity].
  assert (UV : a_u a <> a_v a) by (apply nodes_ne; auto).
  constructor; cbn [s_caps s_nq s_ms].
  - intros b Hb. assert (N : a_u b <> a_v a) by (apply nodes_ne; auto).
    unfold on_unode. rewrite sum_over_snoc. fold (on_unode (s_ms st) (a_u b)).
    pose proof (iv_unq _ HI b Hb) as I1. unfold fset.
    destruct (Nat.eqb_spec (a_u b) (a_v a)); [congruence|].
    destruct (Nat.eqb_spec (a_u b) (a_u a)).
    + rewrite e, Nat.eqb_refl in *. rewrite <- I1. ring.
    + destruct (Nat.eqb_spec (a_u a) (a_u b)); [congruence|]. rewrite I1. ring.
  - intros b Hb. assert (N : a_u a <> a_v b) by (apply nodes_ne; auto).
    unfold on_vnode. rewrite sum_over_snoc. fold (on_vnode (s_ms st) (a_v b)).
    pose proof (iv_vnq _ HI b Hb) as I1. unfold fset.
    destruct (Nat.eqb_spec (a_v b) (a_v a)).
    + rewrite e in *. rewrite !Nat.eqb_refl.
      destruct (Nat.eqb_spec (a_v a) (a_u a)); [congruence|]. rewrite I1. ring.
    + destruct (Nat.eqb_spec (a_v b) (a_u a)); [congruence|].
      destruct (Nat.eqb_spec (a_v a) (a_v b)); [congruence|]. rewrite I1. ring.
  - intros G HG. unfold fset. destruct (Nat.eqb_spec G GV).
    + subst. exfalso. eapply (wb_disj _ _ WB); eauto.
    + destruct (Nat.eqb_spec G GU); [subst; rewrite L1|]; apply (iv_ulen _ HI); auto.
  - intros G HG. unfold fset. destruct (Nat.eqb_spec G GV).
    + subst. rewrite L2. apply (iv_vlen _ HI); auto.
    + destruct (Nat.eqb_spec G GU); [subst; exfalso; eapply (wb_disj _ _ WB); eauto|].
      apply (iv_vlen _ HI); auto.
  - intros G i c HG Hc. destruct (iv_ucap _ HI G i c HG Hc) as [x [Hx R]].
    unfold fset. destruct (Nat.eqb_spec G GV).
    { subst. exfalso. eapply (wb_disj _ _ WB); eauto. }
    destruct (Nat.eqb_spec G GU).
    + subst. eexists; split; [apply S1; eauto|].
      eapply rel_ext; [|apply rel_step; exact R].
      unfold uload. rewrite sum_over_snoc, HU, is_group_refl. unfold uunit. reflexivity.
    + exists x. split; auto. eapply rel_ext; [|exact R].
      unfold uload. rewrite sum_over_snoc, HU, is_group_ne by congruence. ring.
  - intros G i c HG Hc. destruct (iv_vcap _ HI G i c HG Hc) as [x [Hx R]].
    unfold fset. destruct (Nat.eqb_spec G GV).
    + subst. eexists; split; [apply S2; eauto|].
      eapply rel_ext; [|apply rel_step; exact R].
      unfold vload. rewrite sum_over_snoc, HV, is_group_refl. unfold vunit. reflexivity.
    + destruct (Nat.eqb_spec G GU).
      { subst. exfalso. eapply (wb_disj _ _ WB); eauto. }
      exists x. split; auto. eapply rel_ext; [|exact R].
      unfold vload. rewrite sum_over_snoc, HV, is_group_ne by congruence. ring.
  - intros b q' Hb. apply in_app_iff in Hb as [Hb|[Hb|[]]]; [eapply (iv_pos _ HI); eauto|].
    injection Hb as <- <-. auto.
  - intros b q' Hb. apply in_app_iff in Hb as [Hb|[Hb|[]]]; [eapply (iv_in _ HI); eauto|].
    injection Hb as <- <-. auto.
Qed.

(** ** The abstract trace *)

(** Nothing is matched on [a] with [rem] still wanted. *)
Definition skips (ms : list (arc * Q)) (rem : Q) (a : arc) : Prop :=
  if a_excl a then
    a_exclval a <= eps \/ ~ (a_exclval a <= rem /\ room g ms a (a_exclval a))
  else forall q, q <= rem -> room g ms a q -> q <= eps.

(** [q] is matched on [a]. *)
Definition takes (ms : list (arc * Q)) (rem : Q) (a : arc) (q : Q) : Prop :=
  eps < q /\
  if a_excl a then
    q = a_exclval a /\ exists t, t <= rem /\ room g ms a t /\ q <= t + tol
  else q <= rem /\ room g ms a q /\ forall q', q' <= rem -> room g ms a q' -> q' <= q.

Inductive tr (target : Q) : list arc -> Q -> list (arc * Q) -> Q -> list (arc * Q) -> Prop :=
| tr_nil m ms : tr target [] m ms m ms
| tr_stop a l m ms : target < m -> tr target (a :: l) m ms m ms
| tr_skip a l m ms m' ms' : m <= target -> In a (gr_arcs g) -> skips ms (target - m) a ->
    tr target l m ms m' ms' -> tr target (a :: l) m ms m' ms'
| tr_take a q l m ms m' ms' : m <= target -> In a (gr_arcs g) -> takes ms (target - m) a q ->
    tr target l (m + q) (ms ++ [(a, q)]) m' ms' -> tr target (a :: l) m ms m' ms'.

Lemma tr_over target l m ms : target < m -> tr target l m ms m ms.
Proof. destruct l; [constructor|apply tr_stop]. Qed.

Lemma tr_over_inv target l m ms m' ms' : tr target l m ms m' ms' -> target < m -> m' = m /\ ms' = ms.
Proof. inversion 1; subst; intros; auto; lra. Qed.

Lemma tr_app target l1 l2 m ms m1 ms1 m2 ms2 :
  tr target l1 m ms m1 ms1 -> tr target l2 m1 ms1 m2 ms2 -> tr target (l1 ++ l2) m ms m2 ms2.
Proof.
  induction 1; intros T; simpl; auto.
  - apply tr_over_inv in T as [-> ->]; auto. apply tr_stop; auto.
  - apply tr_skip; auto.
  - eapply tr_take; eauto.
Qed.

Lemma try_arc_tr st a target m : Inv st -> In a (gr_arcs g) -> m <= target ->
  exists m' st', try_arc fd eps g target m st a = Ok (m', st') /\ Inv st' /\
    tr target [a] m (s_ms st) m' (s_ms st').
Proof.
  intros HI Ha HM. destruct FD as (_ & F1 & F2 & F3).
  destruct (arc_cap_spec st a HI Ha) as [c [Ec [Oc Sc]]].
  unfold try_arc. rewrite Ec.
  assert (exists t, tomatch (target - m) c = Fin t) as [t Et].
  { unfold tomatch, nmin. destruct c; simpl in *; try tauto; [|eauto].
    destruct (Qltb q (target - m)); eauto. }
  rewrite Et.
  assert (St : forall q, q <= t <-> q <= target - m /\ room g (s_ms st) a q).
  { intros q. rewrite <- Sc. change (q <= t) with (nle q (Fin t)). rewrite <- Et.
    unfold tomatch. rewrite nmin_le; simpl; auto; tauto. }
  assert (Rt : t <= target - m /\ room g (s_ms st) a t) by (apply St; lra).
  assert (NNU : 0 <= eps -> 0 <= on_unode (s_ms st) (a_u a)).
  { intros E0. apply sum_over_nonneg. intros b q Hb. apply (iv_pos _ HI) in Hb.
    destruct (Nat.eqb _ _); lra. }
  assert (NNV : 0 <= eps -> 0 <= on_vnode (s_ms st) (a_v a)).
  { intros E0. apply sum_over_nonneg. intros b q Hb. apply (iv_pos _ HI) in Hb.
    destruct (Nat.eqb _ _); lra. }
  assert (E0 : 0 <= eps) by lra. specialize (NNU E0). specialize (NNV E0).
  destruct Rt as [R1 R2]. pose proof R2 as (RU & RV & _).
  unfold excl_adjust. destruct (a_excl a) eqn:EX.
  - destruct (Qleb_spec float_ulp_eq (fd t (a_exclval a))).
    + destruct (Qltb_spec eps 0); [lra|]. exists m, st. split; auto. split; auto.
      apply tr_skip; auto; [|constructor]. unfold skips. rewrite EX. right.
      intros [X1 X2]. assert (a_exclval a <= t) by (apply St; auto).
      apply F3 in H. unfold float_ulp_eq in q. lra.
    + destruct (Qltb_spec eps (a_exclval a)).
      * assert (a_exclval a <= t + tol) by (apply F1; unfold float_ulp_eq in *; lra).
        destruct (do_match_spec st a (a_exclval a)) as [st' [E [I' M']]]; auto; try lra.
        rewrite E. exists (m + a_exclval a), st'. split; auto. split; auto.
        rewrite M'. eapply tr_take; auto; [|constructor]. unfold takes. rewrite EX.
        split; auto. split; auto. exists t. auto.
      * exists m, st. split; auto. split; auto.
        apply tr_skip; auto; [|constructor]. unfold skips. rewrite EX. left. lra.
  - destruct (Qltb_spec eps t).
    + destruct (do_match_spec st a t) as [st' [E [I' M']]]; auto; try lra.
      rewrite E. exists (m + t), st'. split; auto. split; auto.
      rewrite M'. eapply tr_take; auto; [|constructor]. unfold takes. rewrite EX.
      split; auto. split; auto. split; auto. intros q' X Y. apply St; auto.
    + exists m, st. split; auto. split; auto.
      apply tr_skip; auto; [|constructor]. unfold skips. rewrite EX.
      intros q' X Y. assert (q' <= t) by (apply St; auto). lra.
Qed.

Lemma arcs_loop_tr target l : forall m st, Inv st -> (forall a, In a l -> In a (gr_arcs g)) ->
  exists m' st', arcs_loop fd eps g target l m st = Ok (m', st') /\ Inv st' /\
    tr target l m (s_ms st) m' (s_ms st').
Proof.
  induction l as [|a l IH]; intros m st HI HA; cbn [arcs_loop].
  - exists m, st. split; auto. split; auto. constructor.
  - destruct (Qleb_spec m target).
    + destruct (try_arc_tr st a target m) as [m1 [st1 [E1 [I1 T1]]]]; auto.
      { apply HA. left; auto. }
      rewrite E1. destruct (IH m1 st1) as [m2 [st2 [E2 [I2 T2]]]]; auto.
      { intros b Hb. apply HA. right; auto. }
      exists m2, st2. split; auto. split; auto.
      change (a :: l) with ([a] ++ l). eapply tr_app; eauto.
    + exists m, st. split; auto. split; auto. apply tr_stop. lra.
Qed.

Lemma arcs_of_In n a : In a (arcs_of g n) -> In a (gr_arcs g) /\ (a_u a = n \/ a_v a = n).
Proof.
  unfold arcs_of. rewrite in_flat_map. intros [b [Hb H]]. apply in_app_iff in H.
  destruct (Nat.eqb_spec (a_u b) n), (Nat.eqb_spec (a_v b) n); simpl in H;
    destruct H as [H|H]; try tauto; destruct H as [<-|[]]; auto.
Qed.

Lemma arcs_of_In2 a : In a (gr_arcs g) -> In a (arcs_of g (a_u a)).
Proof.
  intros H. unfold arcs_of. apply in_flat_map. exists a. split; auto.
  rewrite Nat.eqb_refl. simpl. auto.
Qed.

(** The order in which the arcs of a group are tried. *)
Definition order_of (ns : list nat) : list arc :=
  flat_map (fun n => stable_sort (req_pref_comp g) (arcs_of g n)) ns.
Definition order (G : nat) : list arc :=
  order_of (stable_sort (avg_pref_comp g) (g_nodes (group_at g G))).

Lemma nodes_loop_tr target ns : forall m st, Inv st ->
  exists m' st', nodes_loop fd eps g target ns m st = Ok (m', st') /\ Inv st' /\
    tr target (order_of ns) m (s_ms st) m' (s_ms st').
Proof.
  induction ns as [|n ns IH]; intros m st HI; cbn [nodes_loop].
  - exists m, st. split; auto. split; auto. constructor.
  - destruct (Qleb_spec m target).
    + destruct (arcs_loop_tr target (stable_sort (req_pref_comp g) (arcs_of g n)) m st)
        as [m1 [st1 [E1 [I1 T1]]]]; auto.
      { intros b Hb. apply sort_In, arcs_of_In in Hb. tauto. }
      rewrite E1. destruct (IH m1 st1) as [m2 [st2 [E2 [I2 T2]]]]; auto.
      exists m2, st2. split; auto. split; auto. eapply tr_app; eauto.
    + exists m, st. split; auto. split; auto. apply tr_over. lra.
Qed.

Inductive trs : list nat -> list (arc * Q) -> list (arc * Q) -> Prop :=
| trs_nil ms : trs [] ms ms
| trs_cons G Gs m ms ms1 ms2 : tr (g_qty (group_at g G)) (order G) 0 ms m ms1 ->
    trs Gs ms1 ms2 -> trs (G :: Gs) ms ms2.

Lemma satisfy_all_tr Gs : forall st, Inv st ->
  exists st', satisfy_all fd eps g Gs st = Ok st' /\ Inv st' /\ trs Gs (s_ms st) (s_ms st').
Proof.
  induction Gs as [|G Gs IH]; intros st HI; cbn [satisfy_all].
  - exists st. split; auto. split; auto. constructor.
  - unfold satisfy_set.
    destruct (nodes_loop_tr (g_qty (group_at g G))
                (stable_sort (avg_pref_comp g) (g_nodes (group_at g G))) 0 st HI)
      as [m [st1 [E [I1 T]]]].
    rewrite E. destruct (IH st1 I1) as [st2 [E2 [I2 T2]]].
    exists st2. split; auto. split; auto. econstructor; eauto.
Qed.

(** Initial state *)
Lemma get_caps_nq st G n : s_nq st n == 0 -> s_nq (get_caps g st G) n == 0.
Proof.
  unfold get_caps; cbn [s_nq]. generalize (s_nq st). generalize (g_nodes (group_at g G)).
  induction l as [|k t IH]; simpl; auto. intros f H. apply IH. unfold fset.
  destruct (Nat.eqb n k); auto. reflexivity.
Qed.

Lemma get_caps_fold l : forall st,
  (forall n, s_nq st n == 0) ->
  let st' := fold_left (get_caps g) l st in
  (forall n, s_nq st' n == 0) /\ s_ms st' = s_ms st /\
  (forall G, In G l -> s_caps st' G = g_caps (group_at g G)) /\
  (forall G, ~ In G l -> s_caps st' G = s_caps st G).
Proof.
  induction l as [|G l IH]; intros st H; cbn [fold_left].
  - repeat split; auto. intros G [].
  - destruct (IH (get_caps g st G)) as (A & B & C & D).
    { intros n. apply get_caps_nq; auto. }
    split; auto. split; auto. split.
    + intros H' [<-|Hin]; auto. destruct (in_dec Nat.eq_dec G l); auto.
      rewrite D; auto. simpl. unfold fset. now rewrite Nat.eqb_refl.
    + intros H' N. rewrite D; [|intros X; apply N; right; auto]. simpl. unfold fset.
      destruct (Nat.eqb_spec H' G); auto. subst. exfalso. apply N. left; auto.
Qed.

Lemma init_Inv : Inv (init g) /\ s_ms (init g) = [].
Proof.
  unfold init.
  set (st0 := mkGst (fun _ => 0) (fun _ => []) (gr_matches g)).
  destruct (get_caps_fold (gr_req g) st0) as (A & B & C & D); [intros; simpl; reflexivity|].
  set (st1 := fold_left (get_caps g) (gr_req g) st0) in *.
  destruct (get_caps_fold (gr_sup g) st1 A) as (A' & B' & C' & D').
  set (st2 := fold_left (get_caps g) (gr_sup g) st1) in *.
  assert (M : s_ms st2 = []).
  { rewrite B', B. apply (wb_fresh _ _ WB). }
  split; auto.
  assert (CR : forall G, In G (gr_req g) -> s_caps st2 G = g_caps (group_at g G)).
  { intros G HG. rewrite D'; [apply C; auto|]. apply (wb_disj _ _ WB); auto. }
  constructor; rewrite ?M.
  - intros a _. exact (A' (a_u a)).
  - intros a _. exact (A' (a_v a)).
  - intros G HG. now rewrite CR.
  - intros G HG. now rewrite C'.
  - intros G i c HG Hc. rewrite CR by auto. exists c. split; auto.
    destruct c; simpl; auto. unfold uload, sum_over. simpl. ring.
  - intros G i c HG Hc. rewrite C' by auto. exists c. split; auto.
    destruct c; simpl; auto. unfold vload, sum_over. simpl. ring.
  - intros a q [].
  - intros a q [].
Qed.

Lemma solve_tr : exists st, satisfy_all fd eps g (gr_req g) (init g) = Ok st /\ Inv st /\
  trs (gr_req g) [] (s_ms st).
Proof.
  destruct init_Inv as [HI M]. destruct (satisfy_all_tr (gr_req g) (init g) HI) as [st [E [I' T]]].
  exists st. rewrite M in T. auto.
Qed.

End P.
