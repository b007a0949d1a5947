(** Graphs translated from an exchange are ready for the optimisation solver, also after the greedy run. *)
From Coq Require Import String QArith List Bool Arith ZArith Lia Lqa Permutation.
From Verif Require Import Base GreedyModel GreedySpec GreedyProofs1 GreedyProofs4 ExchangeModel ExchangeSpec
  ExchangeProofs1 ExchangeProofs2 ExchangeProofs3 ExchangeProofs4 ExchangeProofs5 ExchangeProofs7 ExchangeProofs8
  ProgModel ProgSpec ProgSolveModel.
Import ListNotations.
Open Scope Q_scope.

Section Same.
Variables g h : graph.
Hypothesis SM : same g h.

Lemma same_na i : node_at h i = node_at g i. Proof. apply same_node_at; auto. Qed.
Lemma same_inreq G : In G (gr_req h) <-> In G (gr_req g).
Proof. split; apply Permutation_in; [|apply Permutation_sym]; apply (sm_req _ _ SM). Qed.
Lemma same_inall G : In G (gr_req h ++ gr_sup h) <-> In G (gr_req g ++ gr_sup g).
Proof. rewrite !in_app_iff, same_inreq, (sm_sup _ _ SM). tauto. Qed.
Lemma same_ingn G n : In n (g_nodes (group_at h G)) <-> In n (g_nodes (group_at g G)).
Proof. split; apply Permutation_in; [|apply Permutation_sym]; apply (sm_gn _ _ SM). Qed.

Lemma same_ready : prog_ready g -> prog_ready h.
Proof.
  intros [K1 K2 K3 K4 K5 K6 K7 K8 K9 K10 K11 K12 K13 K14].
  assert (AR := sm_arcs _ _ SM). assert (SU := sm_sup _ _ SM).
  constructor.
  - now rewrite AR.
  - intros n. rewrite same_na. auto.
  - intros G I. apply (Permutation_NoDup (Permutation_sym (sm_gn _ _ SM G))). apply K3. now apply same_inall.
  - intros G n I J. rewrite same_na. apply K4; [now apply same_inall|now apply same_ingn].
  - apply (Permutation_NoDup (l := gr_req g ++ gr_sup g)); auto.
    rewrite SU. apply Permutation_app_tail. apply Permutation_sym, (sm_req _ _ SM).
  - intros G n k I J. rewrite same_na, AR. apply (K6 G); [now apply same_inreq|now apply same_ingn].
  - intros G n k I J. rewrite same_na, AR. rewrite SU in I. apply (K7 G); [auto|now apply same_ingn].
  - intros a. rewrite AR, SU. intros I. destruct (K8 a I) as [GU [GV [A [B [C [D [E [F H]]]]]]]].
    exists GU, GV. rewrite !same_na, !(sm_caps _ _ SM).
    split; [now apply same_inreq|]. split; [now apply same_ingn|]. split; auto. split; [now apply same_ingn|]. auto.
  - intros G I. rewrite (sm_caps _ _ SM). apply K9. now apply same_inreq.
  - intros n e u. rewrite same_na. apply K10.
  - intros G n e I J. rewrite same_na, (sm_caps _ _ SM). apply K11; [now apply same_inall|now apply same_ingn].
  - intros G ns n I. rewrite same_na, (sm_excl _ _ SM). intros J L.
    destruct (K12 G ns n) as [A B]; auto; [now apply same_inall|]. split; [now apply same_ingn|auto].
  - intros a. rewrite AR, !same_na. auto.
  - intros a. rewrite AR. auto.
Qed.
End Same.

(** Graphs that differ in their matches only. *)
Lemma ready_matches g ms : prog_ready g ->
  prog_ready (mkGraph (gr_nodes g) (gr_groups g) (gr_req g) (gr_sup g) (gr_arcs g) ms).
Proof. intros [K1 K2 K3 K4 K5 K6 K7 K8 K9 K10 K11 K12 K13 K14]. constructor; assumption. Qed.

Lemma same_trans g h k : same g h -> same h k -> same g k.
Proof.
  intros A B. constructor.
  - rewrite (sm_nodes _ _ B). apply A.
  - rewrite (sm_arcs _ _ B). apply A.
  - rewrite (sm_sup _ _ B). apply A.
  - transitivity (gr_req h); [apply B|apply A].
  - rewrite (sm_ms _ _ B). apply A.
  - rewrite (sm_len _ _ B). apply A.
  - intros G. rewrite (sm_qty _ _ B). apply A.
  - intros G. rewrite (sm_caps _ _ B). apply A.
  - intros G. rewrite (sm_excl _ _ B). apply A.
  - intros G. transitivity (g_nodes (group_at h G)); [apply B|apply A].
  - intros G N. rewrite (sm_gsup _ _ B); [now apply A|].
    intros I. apply N. apply (Permutation_in _ (sm_req _ _ A)). exact I.
Qed.

Lemma served_same g : same g (served_order g).
Proof.
  unfold served_order.
  enough (H : forall l h, incl l (gr_req g) -> same g h ->
    same g (fold_left (fun g' G => set_nodes g' G (stable_sort (avg_pref_comp g') (g_nodes (group_at g' G)))) l h)).
  { apply H; [apply incl_refl|apply same_refl]. }
  induction l as [|G l IH]; intros h IN S; simpl; auto.
  apply IH; [intros x Ix; apply IN; simpl; auto|]. apply set_nodes_same; auto. apply IN. simpl; auto.
Qed.

(** What the greedy run leaves: the graph, reordered. *)
Lemma greedy_leaves fd eps w g g1 : gr_matches g = [] -> solve fd eps w g = Ok g1 ->
  same g (cleared (served_order g1)).
Proof.
  intros GM. unfold solve. set (h := conditioned w g).
  destruct (satisfy_all fd eps h (gr_req h) (init h)) as [st|e|]; try discriminate. intros [= <-].
  set (g1 := mkGraph (gr_nodes h) (gr_groups h) (gr_req h) (gr_sup h) (gr_arcs h) (s_ms st)).
  assert (S1 : same g h) by (unfold h; destruct w; simpl; [apply condition_same|apply same_refl]).
  assert (S2 := served_same g1).
  assert (S3 : same h (cleared (served_order g1))).
  { destruct S2. constructor; auto. cbn [cleared gr_matches]. rewrite (GreedyProofs4.sm_ms _ _ S1). auto. }
  exact (same_trans _ _ _ S1 S3).
Qed.

Section Translated.
Variable fd : Q -> Q -> Q.
Variable mgr : nat -> Z.
Variable m m1 : market.
Variable g : graph.
Variable t : tctx.
Hypothesis INV : xinv m.
Hypothesis REG : registered m.
Hypothesis US : usable m.
Hypothesis T : translate fd mgr m = Ok (m1, (g, t)).

Let RP : represents fd mgr m g t := translate_represents fd mgr m INV REG m1 g t T.
Let RX : represents_excl m g t := translate_excl fd mgr m INV REG m1 g t T.
Let ASK : asking m := stage_asking fd mgr m m1 g t INV REG T.
Let WB : well_built fd g := translated_wb fd mgr m g t INV REG RP US ASK.

Lemma av_nodup : NoDup (map a_v (gr_arcs g)).
Proof.
  apply (NoDup_map_inv Some).
  assert (E : map Some (map a_v (gr_arcs g)) = map (fun b => nfind b (b2n t)) (filter (liked m) (all_bids m))).
  { assert (F := rp_arcs _ _ _ _ _ RP). induction F as [|b a bs l [_ [E _]] _ IH]; simpl; auto. now rewrite IH, E. }
  rewrite E. apply nodup_map_inj.
  - apply NoDup_filter. apply (NDB m INV REG).
  - intros x y Ix Iy EQ. apply filter_In in Ix as [Ix _].
    destruct (bid_home fd mgr m g t INV RP x Ix) as [_ [n [_ [_ [En _]]]]].
    apply (b2n_inj fd mgr m g t RP x y n); congruence.
Qed.

Lemma req_side G n : In G (gr_req g) -> In n (g_nodes (group_at g G)) -> exists p r,
  nth_error (x_rports m) G = Some p /\ In r (rp_reqs (rp_at m p)) /\ nfind r (r2n t) = Some n /\ In r (all_reqs m).
Proof.
  intros IG IN. rewrite (rp_greq _ _ _ _ _ RP) in IG. apply in_seq in IG.
  destruct (nth_error (x_rports m) G) as [p|] eqn:E; [|apply nth_error_None in E; lia].
  destruct (rp_rgroup _ _ _ _ _ RP G p E) as [_ [N _]].
  destruct (map_some_in _ _ _ _ N IN) as [r [Ir Er]]. exists p, r. split; auto. split; auto. split; auto.
  apply in_flat_map. exists p. split; auto. eapply nth_error_In; eauto.
Qed.
Lemma sup_side G n : In G (gr_sup g) -> In n (g_nodes (group_at g G)) -> exists i p b,
  G = (length (x_rports m) + i)%nat /\
  nth_error (x_bports m) i = Some p /\ In b (bp_bids (bp_at m p)) /\ nfind b (b2n t) = Some n /\ In b (all_bids m).
Proof.
  intros IG IN. rewrite (rp_gsup _ _ _ _ _ RP) in IG. apply in_seq in IG.
  destruct (nth_error (x_bports m) (G - length (x_rports m))) as [p|] eqn:E; [|apply nth_error_None in E; lia].
  exists (G - length (x_rports m))%nat.
  assert (EG : G = (length (x_rports m) + (G - length (x_rports m)))%nat) by lia.
  destruct (rp_bgroup _ _ _ _ _ RP _ p E) as [N _]. rewrite <- EG in N.
  destruct (map_some_in _ _ _ _ N IN) as [b [Ib Eb]]. exists p, b. split; auto. split; auto. split; auto. split; auto.
  apply in_flat_map. exists p. split; auto. eapply nth_error_In; eauto.
Qed.

(** No node is both. *)
Lemma sides r b n : In r (all_reqs m) -> In b (all_bids m) -> nfind r (r2n t) = Some n -> nfind b (b2n t) = Some n -> False.
Proof.
  intros Ir Ib Er Eb. destruct (req_home fd mgr m g t INV RP r Ir) as [i [n1 [E1 [_ [F1 [G1 _]]]]]].
  destruct (bid_home fd mgr m g t INV RP b Ib) as [j [n2 [E2 [_ [F2 [_ [G2 _]]]]]]].
  rewrite Er in F1. injection F1 as <-. rewrite Eb in F2. injection F2 as <-.
  rewrite G1 in G2. injection G2 as G2. apply nth_error_lt in E1. lia.
Qed.

Lemma entry_arc n e : In e (n_ucaps (node_at g n)) -> exists a, In a (gr_arcs g) /\ akey a = fst e /\
  (n = a_u a \/ n = a_v a) /\ snd e = ucaps_of (node_at g n) a.
Proof.
  intros I. destruct (translate_keys fd mgr m INV REG m1 g t T n) as [ND KI].
  destruct (KI (fst e)) as [a [Ia [EK H]]]; [now apply in_map|].
  exists a. split; auto. split; auto. split; auto.
  unfold ucaps_of. rewrite EK, alookup_mfind. destruct e as [k l]. cbn [fst snd].
  now rewrite (in_mfind keyb keyb_ok k l _ ND I).
Qed.

Lemma translated_ready : prog_ready g.
Proof.
  constructor.
  - apply (NoDup_map_inv snd). rewrite map_map. exact av_nodup.
  - intros n. apply (translate_keys fd mgr m INV REG m1 g t T n).
  - intros G I. apply in_app_or in I as [I|I]; [now apply (wb_nodes fd g WB)|].
    rewrite (rp_gsup _ _ _ _ _ RP) in I. apply in_seq in I.
    destruct (nth_error (x_bports m) (G - length (x_rports m))) as [p|] eqn:E; [|apply nth_error_None in E; lia].
    assert (EG : G = (length (x_rports m) + (G - length (x_rports m)))%nat) by lia.
    destruct (rp_bgroup _ _ _ _ _ RP _ p E) as [N _]. rewrite <- EG in N.
    apply (NoDup_map_inv Some). rewrite N.
    assert (LR : (p < length (m_bports m))%nat).
    { assert (FF := xi_xb m INV). rewrite Forall_forall in FF. apply FF. eapply nth_error_In; eauto. }
    destruct (bp_at_ok m p INV LR) as [ND _].
    apply nodup_map_inj; auto. intros x y Ix Iy EQ.
    assert (In (nfind x (b2n t)) (map Some (g_nodes (group_at g G)))) as J.
    { rewrite N. now apply in_map with (f := fun r => nfind r (b2n t)). }
    apply in_map_iff in J as [n [J _]]. apply (b2n_inj fd mgr m g t RP x y n); congruence.
  - intros G n I J. apply in_app_or in I as [I|I]; [now apply (wb_req fd g WB)|].
    destruct (sup_side G n I J) as [i [p [b [-> [E [Ib [Eb _]]]]]]].
    apply (rp_bnode _ _ _ _ _ RP i p b n E Ib Eb).
  - rewrite (rp_greq _ _ _ _ _ RP), (rp_gsup _ _ _ _ _ RP).
    rewrite <- seq_app. apply seq_NoDup.
  - intros G n k I J K. destruct (translate_keys fd mgr m INV REG m1 g t T n) as [_ KI].
    destruct (KI k K) as [a [Ia [EK [H|H]]]]; [exists a; auto|]. exfalso.
    destruct (req_side G n I J) as [p [r [_ [_ [Er Ir]]]]].
    destruct (arc_bid fd mgr m g t RP a Ia) as [b [Ib [_ [_ [Eb _]]]]]. rewrite <- H in Eb.
    exact (sides r b n Ir Ib Er Eb).
  - intros G n k I J K. destruct (translate_keys fd mgr m INV REG m1 g t T n) as [_ KI].
    destruct (KI k K) as [a [Ia [EK [H|H]]]]; [|exists a; auto]. exfalso.
    destruct (sup_side G n I J) as [i [p [b [_ [_ [_ [Eb Ib]]]]]]].
    destruct (arc_bid fd mgr m g t RP a Ia) as [c [Ic [_ [Er _]]]]. rewrite <- H in Er.
    exact (sides _ b n (rg_ans m REG c Ic) Ib Er Eb).
  - intros a Ia. destruct (wb_arc fd g WB a Ia) as [GU [GV [A [B [C [D [E [F [L1 [L2 _]]]]]]]]]].
    exists GU, GV. split; auto. split; auto. split; auto. split; auto. split; auto. split; auto.
    destruct (arc_bid fd mgr m g t RP a Ia) as [b [Ib [Lb [Ur [Vb _]]]]].
    assert (P := rp_prefs _ _ _ _ _ RP _ _ (rg_ans m REG b Ib) Ur).
    assert (J : In (Some (a_v a), pref_for m b) (map (fun x => (Some (snd (fst x)), snd x)) (n_prefs (node_at g (a_u a))))).
    { rewrite P. apply in_map_iff. exists b. split; [now rewrite Vb|]. apply filter_In. split; [apply filter_In; auto|].
      apply Nat.eqb_refl. }
    apply in_map_iff in J as [[[x y] v] [EQ J]]. cbn [fst snd] in EQ.
    assert (Ey : y = a_v a) by congruence. assert (Ex := rp_prefkeys _ _ _ _ _ RP _ _ _ J). cbn [fst] in Ex.
    apply in_map_iff. exists ((x, y), v). split; auto. cbn [fst]. unfold akey. congruence.
  - intros G I. rewrite (rp_greq _ _ _ _ _ RP) in I. apply in_seq in I.
    destruct (nth_error (x_rports m) G) as [p|] eqn:E; [|apply nth_error_None in E; lia].
    destruct (rp_rgroup _ _ _ _ _ RP G p E) as [_ [_ ->]]. unfold req_cons. rewrite map_app.
    intros H. apply app_eq_nil in H as [_ H]. discriminate.
  - intros n e u I J. destruct (entry_arc n e I) as [a [Ia [_ [H E]]]]. rewrite E in J.
    destruct (wb_arc fd g WB a Ia) as [GU [GV [_ [_ [_ [_ [_ [_ [_ [_ [P1 [P2 _]]]]]]]]]]]].
    rewrite Forall_forall in P1, P2. destruct H as [-> | ->]; auto.
  - intros G n e I J K. destruct (entry_arc n e K) as [a [Ia [_ [H ->]]]].
    destruct (wb_arc fd g WB a Ia) as [GU [GV [A [B [C [D [E [F [L1 [L2 _]]]]]]]]]].
    assert (NG : n_group (node_at g n) = Some G).
    { apply in_app_or in I as [I|I]; [now apply (wb_req fd g WB)|].
      destruct (sup_side G n I J) as [i [p [b [-> [Ei [Ib [Eb _]]]]]]].
      apply (rp_bnode _ _ _ _ _ RP i p b n Ei Ib Eb). }
    destruct H as [-> | ->].
    + assert (G = GU) by (unfold ugroup, unode in A; congruence). subst. exact L1.
    + assert (G = GV) by (unfold vgroup, vnode in D; congruence). subst. exact L2.
  - intros G ns n I J K. destruct RX as [RX1 RX2].
    apply in_app_or in I as [I|I].
    + rewrite (rp_greq _ _ _ _ _ RP) in I. apply in_seq in I.
      destruct (nth_error (x_rports m) G) as [p|] eqn:E; [|apply nth_error_None in E; lia].
      assert (X := RX1 G p E). apply (in_map (map Some)) in J. rewrite X in J.
      apply in_map_iff in J as [r [EQ Ir]]. apply filter_In in Ir as [Ir Xr].
      apply (in_map Some) in K. rewrite <- EQ in K. destruct K as [K|[]].
      destruct (rp_rgroup _ _ _ _ _ RP G p E) as [_ [N _]].
      split; [exact (map_some_in2 _ _ _ _ _ N Ir K)|].
      destruct (rp_rnode _ _ _ _ _ RP G p r n E Ir K) as [_ [_ [-> _]]]. exact Xr.
    + rewrite (rp_gsup _ _ _ _ _ RP) in I. apply in_seq in I.
      destruct (nth_error (x_bports m) (G - length (x_rports m))) as [p|] eqn:E; [|apply nth_error_None in E; lia].
      assert (EG : (length (x_rports m) + (G - length (x_rports m)))%nat = G) by lia.
      destruct (RX2 _ p E) as [os [_ [_ X]]]. rewrite EG in X.
      apply (in_map (map Some)) in J. rewrite X in J.
      apply in_map_iff in J as [o [EQ _]].
      apply (in_map Some) in K. rewrite <- EQ in K. apply in_map_iff in K as [b [Eb Ib]].
      apply filter_In in Ib as [Ib Xb]. apply andb_true_iff in Xb as [Xb _].
      destruct (rp_bgroup _ _ _ _ _ RP _ p E) as [N _]. rewrite EG in N.
      split; [exact (map_some_in2 _ _ _ _ _ N Ib Eb)|].
      destruct (rp_bnode _ _ _ _ _ RP _ p b n E Ib Eb) as [_ [_ [-> _]]]. exact Xb.
  - intros a Ia. destruct (wb_arc fd g WB a Ia) as [GU [GV [_ [_ [_ [_ [_ [_ [_ [_ [_ [_ AN]]]]]]]]]]]].
    unfold unode, vnode in AN. rewrite AN at 1. unfold arc_new.
    destruct (n_excl (node_at g (a_u a)) || n_excl (node_at g (a_v a))); auto.
  - intros a Ia. destruct (wb_arc fd g WB a Ia) as [GU [GV [_ [_ [_ [_ [_ [_ [_ [_ [_ [_ AN]]]]]]]]]]]].
    rewrite AN. unfold arc_new.
    assert (Q1 := wb_qty fd g WB (a_u a)). assert (Q2 := wb_qty fd g WB (a_v a)).
    fold (unode g a) in Q1. fold (vnode g a) in Q2.
    repeat (match goal with |- context [if ?c then _ else _] => destruct c end); cbn [a_exclval]; auto; lra.
Qed.
End Translated.
