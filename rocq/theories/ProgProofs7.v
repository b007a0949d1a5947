(** Whole exchanges solved with the optimisation solver. *)
From Coq Require Import String QArith List Bool Arith ZArith Lia Lqa Permutation.
From Verif Require Import Base GreedyModel GreedySpec GreedyProofs1 GreedyProofs2 GreedyProofs4 GreedyProofs5 ExchangeModel ExchangeSpec
  ExchangeProofs1 ExchangeProofs2 ExchangeProofs4 ExchangeProofs5 ExchangeProofs7 ExchangeProofs8
  ProgModel ProgSpec ProgProofs1 ProgProofs2 ProgProofs3 ProgProofs4 ProgProofs5 ProgSolveModel ProgSolveSpec ProgProofs6.
Import ListNotations.
Open Scope Q_scope.

Lemma made_inv fd eps excl g g2 p : gr_matches g = [] -> prog_made fd eps excl g = Ok (g2, p) ->
  same g g2 /\ exists ps, pseudo_cost g2 excl = Some ps /\ to_prog g2 excl ps = Ok p.
Proof.
  intros GM. unfold prog_made. destruct (solve fd eps (Some []) g) as [g1|e|] eqn:SV; try discriminate.
  set (h := cleared (served_order g1)).
  assert (SM : same g h) by (eapply greedy_leaves; eauto). clearbody h.
  destruct (pseudo_cost h excl) as [ps|] eqn:PC; try discriminate.
  destruct (to_prog h excl ps) as [p'|e|] eqn:TP; try discriminate. intros [= <- <-]. eauto.
Qed.

Lemma pseudo_excl_some g arcs m : (forall a, In a arcs -> 0 < pref_of (unode g a) a) ->
  (forall a, In a arcs -> arc_pref g (akey a) = pref_of (unode g a) a) ->
  (forall a, In a arcs -> ProgModel.arc_of g (akey a) = a) -> exists ps, pseudo_from g true arcs m = Some ps.
Proof.
  revert m. induction arcs as [|a l IH]; intros m P E A; [eexists; reflexivity|].
  assert (P' : 0 < arc_pref g (akey a)) by (rewrite E; [apply P|]; left; auto).
  assert (IH' := fun m => IH m (fun a I => P a (or_intror I)) (fun a I => E a (or_intror I)) (fun a I => A a (or_intror I))).
  cbn [pseudo_from]. unfold arc_cost. rewrite (A a (or_introl eq_refl)).
  destruct (Qeqb_spec (arc_pref g (akey a)) 0) as [Z|_]; [lra|]. cbn [andb].
  destruct (a_excl a); cbn [andb]; [|apply IH'].
  destruct (Qltb (a_exclval a) 1); [|apply IH'].
  destruct (Qeqb_spec (a_exclval a) 0) as [Z|_]; [|apply IH'].
  destruct (Qeqb_spec (a_exclval a / arc_pref g (akey a)) 0) as [_|N]; [apply IH'|].
  elim N. rewrite Z. unfold Qdiv. ring.
Qed.

Section Run.
Variable fd : Q -> Q -> Q.
Variable mgr : nat -> Z.
Variable eps : Q.
Variable excl : bool.
Variable m m1 : market.
Variable g g2 : graph.
Variable t : tctx.
Variable ps : Q.
Variable p : lp.
Variable sol : nat -> Q.
Variable ts : list trade.
Hypothesis INV : xinv m.
Hypothesis REG : registered m.
Hypothesis US : usable m.
Hypothesis EPS : 0 <= eps.
Hypothesis T : translate fd mgr m = Ok (m1, (g, t)).
Hypothesis SM : same g g2.
Hypothesis PC : pseudo_cost g2 excl = Some ps.
Hypothesis TP : to_prog g2 excl ps = Ok p.
Hypothesis FE : feasible p sol.
Let ms := prog_matches eps excl g2 sol.
Hypothesis BA : back_all t ms = Ok ts.

Let RP : represents fd mgr m g t := translate_represents fd mgr m INV REG m1 g t T.
Let RX : represents_excl m g t := translate_excl fd mgr m INV REG m1 g t T.
Let PR : prog_ready g2 := same_ready g g2 SM (translated_ready fd mgr m m1 g t INV REG US T).
Let WB : well_built fd g := translated_wb fd mgr m g t INV REG RP US (stage_asking fd mgr m m1 g t INV REG T).

Lemma match_arc a q : In (a, q) ms -> In a (gr_arcs g).
Proof. intros I. rewrite <- (sm_arcs _ _ SM). eapply match_basic; eauto. Qed.

Lemma trades_of : Forall2 (trade_of fd m g t) ms ts.
Proof.
  destruct (back_all_ok fd mgr m g t RP ms) as [ts' [E F]]; [exact match_arc|].
  rewrite BA in E. injection E as <-. exact F.
Qed.

Lemma trade_match tr : In tr ts -> exists a q, In (a, q) ms /\ trade_of fd m g t (a, q) tr.
Proof. intros I. destruct (Forall2_in_r _ _ _ tr trades_of I) as [[a q] [J H]]. eauto. Qed.

Lemma p_real tr : In tr ts -> In (td_bid tr) (all_bids m) /\ td_req tr = bd_req (bid_at m (td_bid tr)) /\
  0 < pref_for m (td_bid tr) /\ eps < td_amt tr.
Proof.
  intros I. destruct (trade_match tr I) as [a [q [J [AO [IA [ER EA]]]]]]. cbn [fst snd] in *.
  destruct AO as [IB [LK _]]. split; auto. split; auto. split.
  - unfold liked in LK. destruct (Qltb_spec 0 (pref_for m (td_bid tr))); auto; discriminate.
  - rewrite EA. eapply match_basic; eauto.
Qed.

Lemma unode2 a : unode g2 a = unode g a. Proof. apply same_unode; auto. Qed.
Lemma vnode2 a : vnode g2 a = vnode g a. Proof. apply same_vnode; auto. Qed.

(** Data of the nodes of a trade's arc. *)
Lemma trade_nodes a q tr : trade_of fd m g t (a, q) tr ->
  n_qty (unode g a) = rs_qty (rq_target (req_at m (td_req tr))) /\ n_excl (unode g a) = rq_excl (req_at m (td_req tr)) /\
  n_qty (vnode g a) = rs_qty (bd_offer (bid_at m (td_bid tr))) /\ n_excl (vnode g a) = bd_excl (bid_at m (td_bid tr)) /\
  a = arc_new fd (a_u a) (a_v a) (unode g a) (vnode g a).
Proof.
  intros [[IB [_ [U [V AN]]]] [IA [ER _]]]. cbn [fst] in *.
  destruct (req_home fd mgr m g t INV RP _ (rg_ans m REG _ IB)) as [i [n [_ [_ [En [_ [Q1 [X1 _]]]]]]]].
  destruct (bid_home fd mgr m g t INV RP _ IB) as [j [k [_ [_ [Ek [_ [_ [Q2 [X2 _]]]]]]]]].
  rewrite U in En. injection En as <-. rewrite V in Ek. injection Ek as <-. rewrite ER. auto.
Qed.

Lemma p_amount tr : In tr ts ->
  (excl && excl_trade m tr = false -> td_amt tr <= rs_qty (rq_target (req_at m (td_req tr)))) /\
  (excl = true -> rq_excl (req_at m (td_req tr)) = true -> td_amt tr == rs_qty (rq_target (req_at m (td_req tr)))) /\
  (excl = true -> rq_excl (req_at m (td_req tr)) = false -> bd_excl (bid_at m (td_bid tr)) = true ->
     td_amt tr == rs_qty (bd_offer (bid_at m (td_bid tr)))).
Proof.
  intros I. destruct (trade_match tr I) as [a [q [J TO]]].
  destruct (trade_nodes a q tr TO) as [Q1 [X1 [Q2 [X2 AN]]]].
  destruct TO as [_ [IA [_ EA]]]. cbn [fst snd] in *.
  assert (AX : a_excl a = excl_trade m tr).
  { rewrite AN. unfold arc_new, excl_trade. rewrite X1, X2. destruct (_ || _); auto. }
  assert (M := match_qty g2 excl ps p sol eps PR TP FE a q J).
  assert (N := match_excl g2 excl ps p sol eps PR TP FE EPS a q J).
  destruct (match_basic g2 excl ps p sol eps PR TP a q J) as [_ [PQ _]].
  rewrite AX, unode2 in *. rewrite EA, <- Q1, <- Q2. split; [auto|].
  assert (V : a_exclval a = a_exclval (arc_new fd (a_u a) (a_v a) (unode g a) (vnode g a))) by now rewrite <- AN.
  unfold arc_new in V. rewrite X1, X2 in V.
  split.
  - intros -> XR. unfold excl_trade in N. rewrite XR in *. simpl in N, V. specialize (N eq_refl).
    rewrite N in PQ |- *. rewrite V in PQ |- *. 
    destruct (bd_excl (bid_at m (td_bid tr))); (destruct (Qleb _ _); [reflexivity|lra]).
  - intros -> XR XB. unfold excl_trade in N. rewrite XR, XB in *. simpl in N, V. specialize (N eq_refl).
    rewrite N in PQ |- *. rewrite V in PQ |- *. destruct (Qleb _ _); [reflexivity|lra].
Qed.

(** A trade is determined by its arc. *)
Lemma same_arc tr1 tr2 : In tr1 ts -> In tr2 ts ->
  (forall a1 q1 a2 q2, In (a1, q1) ms -> In (a2, q2) ms -> trade_of fd m g t (a1, q1) tr1 ->
     trade_of fd m g t (a2, q2) tr2 -> a1 = a2) -> tr1 = tr2.
Proof.
  intros I1 I2 H. destruct (trade_match tr1 I1) as [a1 [q1 [J1 T1]]]. destruct (trade_match tr2 I2) as [a2 [q2 [J2 T2]]].
  assert (a1 = a2) by (eapply H; eauto). subst a2.
  assert (q1 = q2).
  { assert (ND := matches_once g2 excl sol eps PR). fold ms in ND. clear - ND J1 J2.
    induction ms as [|[a q] l IH]; [destruct J1|]. simpl in ND. inversion ND as [|x y N1 N2]; subst.
    destruct J1 as [J1|J1], J2 as [J2|J2]; auto; try congruence.
    - injection J1 as -> ->. elim N1. apply in_map_iff. exists (a1, q2). auto.
    - injection J2 as -> ->. elim N1. apply in_map_iff. exists (a1, q1). auto. }
  subst q2. destruct T1 as [[_ [_ [_ [V1 _]]]] [_ [E1 F1]]], T2 as [[_ [_ [_ [V2 _]]]] [_ [E2 F2]]]. cbn [fst snd] in *.
  assert (B := b2n_inj fd mgr m g t RP _ _ _ V1 V2).
  destruct tr1 as [r1 b1 x1], tr2 as [r2 b2 x2]. cbn [td_bid td_req td_amt] in *. subst. auto.
Qed.

Lemma arc_eq a1 a2 : In a1 (gr_arcs g) -> In a2 (gr_arcs g) -> a_v a1 = a_v a2 -> a1 = a2.
Proof.
  intros I1 I2 E. destruct (arc_bid fd mgr m g t RP a1 I1) as [b1 [_ [_ [U1 [V1 A1]]]]].
  destruct (arc_bid fd mgr m g t RP a2 I2) as [b2 [_ [_ [U2 [V2 A2]]]]].
  rewrite E in V1. assert (b1 = b2) by (eapply (b2n_inj fd mgr m g t RP); eauto). subst b2.
  rewrite U1 in U2. injection U2 as U2. rewrite A1, A2. unfold unode, vnode. now rewrite U2, E.
Qed.

Lemma p_once tr1 tr2 : In tr1 ts -> In tr2 ts -> td_bid tr1 = td_bid tr2 -> tr1 = tr2.
Proof.
  intros I1 I2 E. apply same_arc; auto. intros a1 q1 a2 q2 J1 J2 T1 T2.
  apply arc_eq; [eapply match_arc; eauto|eapply match_arc; eauto|].
  destruct T1 as [[_ [_ [_ [V1 _]]]] _], T2 as [[_ [_ [_ [V2 _]]]] _]. cbn [fst] in *. congruence.
Qed.

Lemma p_nodup : NoDup (map td_bid ts).
Proof.
  assert (F := trades_of). assert (ND := matches_once g2 excl sol eps PR). fold ms in ND.
  assert (AR : forall a, In a (map fst ms) -> In a (gr_arcs g)).
  { intros a Ia. apply in_map_iff in Ia as [[a' q] [<- Ia]]. eapply match_arc; eauto. }
  revert ND AR F. generalize ms ts. clear BA ts. intros l1 ts ND AR F. induction F as [|[a q] tr l l' H F IH]; [constructor|].
  cbn [map fst] in *. apply NoDup_cons_iff in ND as [N1 N2]. constructor.
  - intros J. apply in_map_iff in J as [tr' [E J]]. destruct (Forall2_in_r _ _ _ tr' F J) as [[a' q'] [Ia' H']].
    assert (IA' : In a' (map fst l)) by (apply in_map_iff; exists (a', q'); auto).
    elim N1. replace a with a'; auto. apply arc_eq; [apply AR; right; auto|apply AR; left; auto|].
    destruct H as [[_ [_ [_ [V1 _]]]] _], H' as [[_ [_ [_ [V2 _]]]] _]. cbn [fst] in *. congruence.
  - apply IH; auto. intros; apply AR; right; auto.
Qed.

Lemma p_supply k c : In k (x_bports m) -> In c (bp_cons (bp_at m k)) -> used m c (from_bport m k) ts <= cc_cap c.
Proof.
  intros I IC. apply In_nth_error in I as [j E]. apply In_nth_error in IC as [i EC].
  rewrite <- (used_bport fd mgr m g t INV REG RP US _ _ j k i c trades_of E EC).
  rewrite <- (same_vload _ _ SM).
  destruct (rp_bgroup _ _ _ _ _ RP j k E) as [_ CE].
  refine (supply_respected g2 excl ps p sol eps PR TP FE _ i (Some (cc_cap c)) _ _).
  - rewrite (sm_sup _ _ SM), (rp_gsup _ _ _ _ _ RP). apply in_seq. apply nth_error_lt in E. lia.
  - rewrite (sm_caps _ _ SM), CE, nth_error_map, EC. auto.
Qed.

(** An exclusive request, or the exclusive bids that offer one object, are served once. *)
Lemma p_excl_req tr1 tr2 : excl = true -> In tr1 ts -> In tr2 ts -> td_req tr1 = td_req tr2 ->
  rq_excl (req_at m (td_req tr1)) = true -> tr1 = tr2.
Proof.
  intros EX I1 I2 ER XR. apply same_arc; auto. intros a1 q1 a2 q2 J1 J2 T1 T2.
  destruct T1 as [[IB1 [_ [U1 _]]] [_ [E1 _]]], T2 as [[IB2 [_ [U2 _]]] [_ [E2 _]]]. cbn [fst] in *.
  rewrite <- E1 in U1. rewrite <- E2 in U2. rewrite <- ER in U2.
  assert (IR : In (td_req tr1) (all_reqs m)) by (rewrite E1; now apply (rg_ans m REG)).
  destruct (req_home fd mgr m g t INV RP _ IR) as [i [n [Ei [Ir [En _]]]]].
  assert (HN : a_u a1 = n /\ a_u a2 = n) by (split; congruence). destruct HN as [N1 N2].
  destruct RX as [RX1 _]. assert (X := RX1 i _ Ei).
  assert (G : In [n] (g_excl (group_at g i))).
  { assert (K : In [Some n] (map (map Some) (g_excl (group_at g i)))).
    { rewrite X. apply in_map_iff. exists (td_req tr1). rewrite En. split; auto. apply filter_In. auto. }
    apply in_map_iff in K as [l [El Il]]. destruct l as [|x [|y l]]; try discriminate. injection El as ->. exact Il. }
  refine (excl_group g2 excl ps p sol eps PR TP FE EPS i [n] a1 q1 a2 q2 EX _ _ J1 J2 _ _).
  - apply in_or_app. left. apply (same_inreq g g2 SM). rewrite (rp_greq _ _ _ _ _ RP). apply in_seq. apply nth_error_lt in Ei. lia.
  - now rewrite (sm_excl _ _ SM).
  - left. simpl; auto.
  - left. simpl; auto.
Qed.

Lemma p_excl_bid tr1 tr2 : excl = true -> In tr1 ts -> In tr2 ts ->
  bd_port (bid_at m (td_bid tr1)) = bd_port (bid_at m (td_bid tr2)) ->
  rs_id (bd_offer (bid_at m (td_bid tr1))) = rs_id (bd_offer (bid_at m (td_bid tr2))) ->
  bd_excl (bid_at m (td_bid tr1)) = true -> bd_excl (bid_at m (td_bid tr2)) = true -> tr1 = tr2.
Proof.
  intros EX I1 I2 EP EO X1 X2. apply same_arc; auto. intros a1 q1 a2 q2 J1 J2 T1 T2.
  destruct T1 as [[IB1 [_ [_ [V1 _]]]] _], T2 as [[IB2 [_ [_ [V2 _]]]] _]. cbn [fst] in *.
  destruct (bid_home fd mgr m g t INV RP _ IB1) as [i [n1 [Ei [Ib1 [En1 _]]]]].
  destruct (bid_home fd mgr m g t INV RP _ IB2) as [i2 [n2 [Ei2 [Ib2 [En2 _]]]]].
  rewrite <- EP in Ib2.
  destruct RX as [_ RX2]. destruct (RX2 i _ Ei) as [os [_ [OS X]]].
  set (o := rs_id (bd_offer (bid_at m (td_bid tr1)))) in *.
  assert (IO : In o os) by (apply OS; exists (td_bid tr1); auto).
  assert (K : In (map (fun b => nfind b (b2n t))
              (filter (fun b => bd_excl (bid_at m b) && Nat.eqb (rs_id (bd_offer (bid_at m b))) o)
                 (bp_bids (bp_at m (bd_port (bid_at m (td_bid tr1))))))) (map (map Some) (g_excl (group_at g (length (x_rports m) + i))))).
  { rewrite X. apply in_map_iff. exists o. auto. }
  apply in_map_iff in K as [l [El Il]].
  assert (MEM : forall b n, In b (bp_bids (bp_at m (bd_port (bid_at m (td_bid tr1))))) -> bd_excl (bid_at m b) = true ->
     rs_id (bd_offer (bid_at m b)) = o -> nfind b (b2n t) = Some n -> In n l).
  { intros b n Ib Xb Ob En. assert (H : In (Some n) (map Some l)).
    { rewrite El. apply in_map_iff. exists b. split; auto. apply filter_In. split; auto. now rewrite Xb, Ob, Nat.eqb_refl. }
    apply in_map_iff in H as [n' [[= ->] H]]. exact H. }
  refine (excl_group g2 excl ps p sol eps PR TP FE EPS (length (x_rports m) + i) l a1 q1 a2 q2 EX _ _ J1 J2 _ _).
  - apply in_or_app. right. rewrite (sm_sup _ _ SM), (rp_gsup _ _ _ _ _ RP). apply in_seq. apply nth_error_lt in Ei. lia.
  - now rewrite (sm_excl _ _ SM).
  - right. apply (MEM (td_bid tr1)); auto.
  - right. apply (MEM (td_bid tr2)); auto.
Qed.

(** ** Cheapest solutions *)
Lemma caps_nonneg G j c : nth_error (g_caps (group_at g2 G)) j = Some (Some c) -> 0 <= c.
Proof. rewrite (sm_caps _ _ SM). apply (wb_caps fd g WB). Qed.

Lemma p_demand k : excl = false -> optimal p sol -> In k (x_rports m) ->
  exists c, In c (req_cons m k) /\ used m c (for_rport m k) ts <= cc_cap c.
Proof.
  intros EX OP I. apply In_nth_error in I as [i E].
  assert (TP' := TP). assert (TS := trades_of). unfold ms in TS. rewrite EX in TP', TS.
  destruct (request_loosest g2 ps p sol eps i PR TP' OP EPS caps_nonneg) as [j [c [Ec W]]].
  - apply (same_inreq g g2 SM). rewrite (rp_greq _ _ _ _ _ RP). apply in_seq. apply nth_error_lt in E. lia.
  - rewrite (sm_caps _ _ SM) in Ec. destruct (rp_rgroup _ _ _ _ _ RP i k E) as [_ [_ CE]].
    rewrite CE, nth_error_map in Ec. destruct (nth_error (req_cons m k) j) as [cc|] eqn:EC; [|discriminate].
    cbn [option_map] in Ec. injection Ec as <-.
    exists cc. split; [eapply nth_error_In; eauto|].
    rewrite <- (used_rport fd mgr m g t INV REG RP US _ _ i k j cc TS E EC).
    rewrite <- (same_uload _ _ SM). exact W.
Qed.
(** What is dropped below the tolerance. *)
Lemma sum_match f : sum_over (prog_matches eps false g2 sol) f ==
  qsum (map (fun a => if Qltb eps (sol (arc_id g2 (akey a))) then f a (sol (arc_id g2 (akey a))) else 0) (gr_arcs g2)).
Proof.
  rewrite from_prog_flat by apply (pr_keys _ PR). unfold sum_over. induction (gr_arcs g2) as [|a l IH]; [reflexivity|].
  cbn [flat_map]. rewrite map_app, qsum_app, IH. cbn [map qsum]. unfold flow. cbn [andb].
  destruct (Qltb_spec eps (sol (arc_id g2 (akey a)))); cbn [map qsum fst snd]; lra.
Qed.
Lemma slack (f : arc -> Q -> Q) (k : arc -> Q) :
  (forall a q, In a (gr_arcs g2) -> f a q == q * k a) -> (forall a, In a (gr_arcs g2) -> 0 <= k a) ->
  sum_over (flows g2 sol) f <= sum_over (prog_matches eps false g2 sol) f + sum_over (map (fun a => (a, eps)) (gr_arcs g2)) f.
Proof.
  intros F K. rewrite sum_match, (sum_flows g2 sol f (pr_keys _ PR)). unfold sum_over. rewrite map_map.
  rewrite <- qsum_map_plus. apply qsum_map_le. intros a I. cbn [fst snd].
  assert (F1 := F a (sol (arc_id g2 (akey a))) I). assert (F2 := F a eps I). specialize (K a I).
  assert (0 <= eps * k a) by (apply Qmult_le_0_compat; auto).
  destruct (Qltb_spec eps (sol (arc_id g2 (akey a)))) as [L|L]; [lra|].
  assert (sol (arc_id g2 (akey a)) * k a <= eps * k a) by (apply Qmult_le_compat_r; auto; lra). lra.
Qed.

(** The trades there would be if every liked bid traded the tolerance. *)
Definition dust : list trade := map (fun b => mkTrade (bd_req (bid_at m b)) b eps) (filter (liked m) (all_bids m)).
Lemma dust_of : Forall2 (trade_of fd m g t) (map (fun a => (a, eps)) (gr_arcs g)) dust.
Proof.
  unfold dust.
  assert (K : forall bs as', Forall2 (fun b a => nfind (bd_req (bid_at m b)) (r2n t) = Some (a_u a) /\
                                nfind b (b2n t) = Some (a_v a) /\
                                a = arc_new fd (a_u a) (a_v a) (unode g a) (vnode g a)) bs as' ->
    (forall b, In b bs -> In b (all_bids m) /\ liked m b = true) -> (forall a, In a as' -> In a (gr_arcs g)) ->
    Forall2 (trade_of fd m g t) (map (fun a => (a, eps)) as') (map (fun b => mkTrade (bd_req (bid_at m b)) b eps) bs)).
  { induction 1 as [|b a bs as' H _ IH]; intros HB HA; constructor.
    - destruct (HB b) as [B1 B2]; [left; auto|]. destruct H as [H1 [H2 H3]].
      unfold trade_of, ExchangeProofs5.arc_of. cbn [fst snd td_bid td_req td_amt].
      split; [auto|]. split; [apply HA; left; auto|]. auto.
    - apply IH; intros; [apply HB|apply HA]; right; auto. }
  apply (K _ _ (rp_arcs _ _ _ _ _ RP)); auto. intros b I. apply filter_In in I. auto.
Qed.
Lemma dust_le c (P : nat -> bool) (P' : trade -> bool) :
  (forall b q, P' (mkTrade (bd_req (bid_at m b)) b q) = P b) ->
  (forall b, In b (all_bids m) -> P b = true -> 0 <= use m c b) ->
  used m c P' dust <= eps * all_use m c P.
Proof.
  intros HP HU. unfold used, dust, all_use.
  rewrite <- qsum_map_scale. induction (all_bids m) as [|b l IH]; [simpl; lra|].
  assert (IH' := IH (fun b I => HU b (or_intror I))). clear IH.
  assert (U := HU b (or_introl eq_refl)). cbn [filter].
  destruct (P b) eqn:E.
  - assert (0 <= eps * use m c b) by (apply Qmult_le_0_compat; auto).
    destruct (liked m b); cbn [map filter]; rewrite ?HP, ?E; cbn [map qsum td_amt td_bid]; lra.
  - destruct (liked m b); cbn [map filter]; rewrite ?HP, ?E; cbn [map qsum td_amt td_bid]; lra.
Qed.

Lemma use_pos_r b c k : In b (all_bids m) -> In c (req_cons m k) -> rq_port (req_at m (bd_req (bid_at m b))) = k -> 0 <= use m c b.
Proof. intros I J <-. apply Qlt_le_weak. apply (us_r m US b c I J). Qed.
Lemma use_pos_b b c k : In b (all_bids m) -> In c (bp_cons (bp_at m k)) -> bd_port (bid_at m b) = k -> 0 <= use m c b.
Proof. intros I J <-. apply Qlt_le_weak. apply (us_b m US b c I J). Qed.

Lemma vflow_le j k i c : excl = false -> nth_error (x_bports m) j = Some k -> nth_error (bp_cons (bp_at m k)) i = Some c ->
  vload g2 (flows g2 sol) (length (x_rports m) + j) i <= used m c (from_bport m k) ts + eps * all_use m c (bids_from m k).
Proof.
  intros EX E EC. assert (TS := trades_of). unfold ms in TS. rewrite EX in TS.
  rewrite <- (used_bport fd mgr m g t INV REG RP US _ _ j k i c TS E EC).
  assert (D := dust_le c (bids_from m k) (from_bport m k)).
  rewrite <- (used_bport fd mgr m g t INV REG RP US _ _ j k i c dust_of E EC) in D.
  rewrite <- !(same_vload _ _ SM) in *. rewrite <- (sm_arcs _ _ SM) in D.
  assert (S := slack (fun a q => if is_group (vgroup g2 a) (length (x_rports m) + j) then q * vunit g2 a i else 0)
                 (fun a => if is_group (vgroup g2 a) (length (x_rports m) + j) then vunit g2 a i else 0)).
  unfold vload in *. eapply Qle_trans; [apply S|].
  - intros a q _. destruct (is_group _ _); ring.
  - intros a Ia. destruct (is_group _ _) eqn:IG; [|lra]. rewrite (sm_arcs _ _ SM) in Ia.
    destruct (arc_bid fd mgr m g t RP a Ia) as [b AO].
    destruct (arc_groups fd mgr m g t INV REG RP b a AO) as [i' [j' [_ [E2 [_ V]]]]].
    rewrite (same_vgroup _ _ SM), V in IG. cbn in IG. apply Nat.eqb_eq in IG. assert (j' = j) by lia. subst j'.
    rewrite E in E2. injection E2 as E2.
    destruct (arc_units fd mgr m g t INV RP US b a AO Ia) as [_ [_ [_ U]]].
    rewrite (same_vunit _ _ SM), U by (rewrite <- E2; eauto). destruct AO as [IB _].
    eapply use_pos_b; [exact IB|eapply nth_error_In; exact EC|congruence].
  - apply Qplus_le_r. apply D.
    + intros b q. reflexivity.
    + intros b IB PB. apply Nat.eqb_eq in PB. eapply use_pos_b; eauto. eapply nth_error_In; eauto.
Qed.
Lemma uflow_le j k i c : excl = false -> nth_error (x_rports m) j = Some k -> nth_error (req_cons m k) i = Some c ->
  uload g2 (flows g2 sol) j i <= used m c (for_rport m k) ts + eps * all_use m c (bids_for m k).
Proof.
  intros EX E EC. assert (TS := trades_of). unfold ms in TS. rewrite EX in TS.
  rewrite <- (used_rport fd mgr m g t INV REG RP US _ _ j k i c TS E EC).
  assert (D := dust_le c (bids_for m k) (for_rport m k)).
  rewrite <- (used_rport fd mgr m g t INV REG RP US _ _ j k i c dust_of E EC) in D.
  rewrite <- !(same_uload _ _ SM) in *. rewrite <- (sm_arcs _ _ SM) in D.
  assert (S := slack (fun a q => if is_group (ugroup g2 a) j then q * uunit g2 a i else 0)
                 (fun a => if is_group (ugroup g2 a) j then uunit g2 a i else 0)).
  unfold uload in *. eapply Qle_trans; [apply S|].
  - intros a q _. destruct (is_group _ _); ring.
  - intros a Ia. destruct (is_group _ _) eqn:IG; [|lra]. rewrite (sm_arcs _ _ SM) in Ia.
    destruct (arc_bid fd mgr m g t RP a Ia) as [b AO].
    destruct (arc_groups fd mgr m g t INV REG RP b a AO) as [i' [j' [E2 [_ [V _]]]]].
    rewrite (same_ugroup _ _ SM), V in IG. cbn in IG. apply Nat.eqb_eq in IG. subst i'.
    rewrite E in E2. injection E2 as E2.
    destruct (arc_units fd mgr m g t INV RP US b a AO Ia) as [[_ [_ U]] _].
    rewrite (same_uunit _ _ SM), U by (rewrite <- E2; eauto). destruct AO as [IB _].
    eapply use_pos_r; [exact IB|eapply nth_error_In; exact EC|congruence].
  - apply Qplus_le_r. apply D.
    + intros b q. reflexivity.
    + intros b IB PB. apply Nat.eqb_eq in PB. eapply use_pos_r; eauto. eapply nth_error_In; eauto.
Qed.

Lemma traded_ge P l tr : In tr l -> P tr = true -> (forall x, In x l -> 0 <= td_amt x) -> td_amt tr <= traded P l.
Proof.
  unfold traded. induction l as [|x l IH]; [intros []|]. intros I HP N. cbn [filter].
  assert (N0 : 0 <= qsum (map td_amt (filter P l))).
  { apply Base.qsum_nonneg. apply Forall_forall. intros q Iq. apply in_map_iff in Iq as [y [<- Iy]]. apply filter_In in Iy as [Iy _].
    apply N. right; auto. }
  destruct I as [<-|I].
  - rewrite HP. cbn [map qsum]. lra.
  - assert (H := IH I HP (fun x I => N x (or_intror I))). assert (0 <= td_amt x) by (apply N; left; auto).
    destruct (P x); cbn [map qsum]; lra.
Qed.

Lemma map_fst_combine {A B} (l : list A) : forall l' : list B, length l = length l' -> map fst (combine l l') = l.
Proof. induction l as [|x l IH]; intros [|y l'] L; try discriminate; auto. cbn. f_equal. apply IH. now injection L. Qed.
Lemma in_flows h s a : In a (gr_arcs h) -> NoDup (map akey (gr_arcs h)) -> In (a, s (arc_id h (akey a))) (flows h s).
Proof.
  intros I ND. unfold flows.
  assert (K : In a (map fst (combine (gr_arcs h) (map s (seq 0 (length (gr_arcs h))))))).
  { rewrite map_fst_combine; [auto|]. now rewrite map_length, seq_length. }
  apply in_map_iff in K as [[a' q] [Ea Ia]]. cbn [fst] in Ea. subst a'.
  assert (F := flows_in h s a q ND Ia). destruct F as [_ ->]. exact Ia.
Qed.

Lemma p_shortage b c : excl = false -> optimal p sol -> In b (all_bids m) -> 0 < pref_for m b ->
  traded (from_bid b) ts + eps < rs_qty (rq_target (req_at m (bd_req (bid_at m b)))) ->
  (forall c', In c' (bp_cons (bp_at m (bd_port (bid_at m b)))) ->
     used m c' (from_bport m (bd_port (bid_at m b))) ts + eps * all_use m c' (bids_from m (bd_port (bid_at m b))) < cc_cap c') ->
  let k := rq_port (req_at m (bd_req (bid_at m b))) in
  (forall c', In c' (req_cons m k) -> 1 <= use m c' b) ->
  In c (req_cons m k) -> cc_cap c <= inject_Z (10 ^ 15) ->
  cc_cap c <= used m c (for_rport m k) ts + eps * all_use m c (bids_for m k).
Proof.
  intros EX OP IB PP TB VB k US1 IC BC.
  assert (LK : liked m b = true) by (unfold liked; destruct (Qltb_spec 0 (pref_for m b)); auto; contradiction).
  destruct (Forall2_in_l _ _ _ b (rp_arcs _ _ _ _ _ RP)) as [a [Ia [U [V AN]]]]; [apply filter_In; auto|].
  assert (AO : ExchangeProofs5.arc_of fd m g t b a) by (repeat split; auto).
  destruct (arc_groups fd mgr m g t INV REG RP b a AO) as [i [j [E1 [E2 [G1 G2]]]]].
  destruct (arc_units fd mgr m g t INV RP US b a AO Ia) as [[L1 [_ U1]] [L2 [_ U2]]].
  destruct (rp_rgroup _ _ _ _ _ RP i _ E1) as [_ [_ CE1]].
  destruct (rp_bgroup _ _ _ _ _ RP j _ E2) as [_ CE2].
  apply In_nth_error in IC as [ic EC].
  assert (TP' := TP). assert (PC' := PC). rewrite EX in TP', PC'.
  assert (Ia2 : In a (gr_arcs g2)) by (now rewrite (sm_arcs _ _ SM)).
  eapply Qle_trans; [|exact (uflow_le i _ ic c EX E1 EC)].
  refine (no_avoidable g2 ps p sol i (length (x_rports m) + j) a (sol (arc_id g2 (akey a))) PR PC' TP' OP
            (in_flows _ _ _ Ia2 (pr_keys _ PR)) _ _ _ _ _ ic (cc_cap c) _ BC).
  - now rewrite (same_ugroup _ _ SM).
  - now rewrite (same_vgroup _ _ SM).
  - intros j' Lj. rewrite (sm_caps _ _ SM), CE1, map_length in Lj.
    destruct (nth_error (req_cons m k) j') as [c'|] eqn:Ec; [|apply nth_error_None in Ec; unfold k in Ec; lia].
    rewrite (same_uunit _ _ SM), (U1 j' c' Ec). apply US1. eapply nth_error_In; eauto.
  - rewrite unode2. destruct (trade_nodes a eps (mkTrade (bd_req (bid_at m b)) b eps)) as [Q1 _].
    { split; [exact AO|]. cbn. auto. }
    cbn [td_req] in Q1. rewrite Q1. eapply Qle_lt_trans; [|exact TB].
    assert (N : forall x, In x ts -> 0 <= td_amt x).
    { intros x Ix. destruct (p_real x Ix) as [_ [_ [_ A]]]. lra. }
    destruct (Qlt_le_dec eps (sol (arc_id g2 (akey a)))) as [L|L].
    + assert (IM : In (a, sol (arc_id g2 (akey a))) ms).
      { unfold ms. rewrite from_prog_flat by apply (pr_keys _ PR). apply in_flat_map. exists a. split; auto.
        rewrite EX. unfold flow. cbn [andb]. destruct (Qltb_spec eps (sol (arc_id g2 (akey a)))); [left; auto|contradiction]. }
      destruct (Forall2_in_l _ _ _ _ trades_of IM) as [tr [It TO]].
      destruct TO as [[_ [_ [_ [V' _]]]] [_ [_ EA]]]. cbn [fst snd] in *.
      assert (td_bid tr = b) by (eapply (b2n_inj fd mgr m g t RP); eauto).
      assert (H1 : td_amt tr <= traded (from_bid b) ts) by (apply traded_ge; auto; unfold from_bid; rewrite H; apply Nat.eqb_refl).
      rewrite EA in H1. lra.
    + assert (0 <= traded (from_bid b) ts).
      { unfold traded. apply Base.qsum_nonneg. apply Forall_forall. intros q Iq. apply in_map_iff in Iq as [y [<- Iy]].
        apply filter_In in Iy as [Iy _]. auto. }
      lra.
  - intros j' c' Hc. rewrite (sm_caps _ _ SM), CE2, nth_error_map in Hc.
    destruct (nth_error (bp_cons (bp_at m (bd_port (bid_at m b)))) j') as [cc|] eqn:Ec; [|discriminate].
    cbn in Hc. injection Hc as <-. eapply Qle_lt_trans; [exact (vflow_le j _ j' cc EX E2 Ec)|].
    apply VB. eapply nth_error_In; eauto.
  - rewrite (sm_caps _ _ SM), CE1, nth_error_map. unfold k in EC. now rewrite EC.
Qed.
End Run.

Lemma arc_positive fd mgr m m1 g t : xinv m -> registered m -> usable m -> translate fd mgr m = Ok (m1, (g, t)) ->
  forall a, In a (gr_arcs g) -> 0 < pref_of (unode g a) a.
Proof.
  intros INV REG US T a I.
  assert (RP := translate_represents fd mgr m INV REG m1 g t T).
  assert (PR := translated_ready fd mgr m m1 g t INV REG US T).
  destruct (arc_bid fd mgr m g t RP a I) as [b [IB [_ [U _]]]].
  destruct (pr_arc _ PR a I) as [_ [_ [_ [_ [_ [_ [_ [_ K]]]]]]]].
  assert (RPP := rp_prefs _ _ _ _ _ RP _ _ (rg_ans m REG b IB) U).
  assert (POS : forall x, In x (n_prefs (node_at g (a_u a))) -> 0 < snd x).
  { intros x Ix. assert (J : In (Some (snd (fst x)), snd x) (map (fun x => (Some (snd (fst x)), snd x)) (n_prefs (node_at g (a_u a)))))
      by (apply in_map_iff; eauto).
    rewrite RPP in J. apply in_map_iff in J as [b' [E J]]. apply filter_In in J as [J _]. apply filter_In in J as [_ J].
    apply (f_equal snd) in E. cbn [snd] in E. rewrite <- E. unfold liked in J. destruct (Qltb_spec 0 (pref_for m b')); auto; discriminate. }
  unfold pref_of. unfold unode. clear RPP. induction (n_prefs (node_at g (a_u a))) as [|[k v] l IH]; [destruct K|].
  cbn [alookup]. destruct (keyb (akey a) k) eqn:KE; [apply (POS (k, v)); left; auto|].
  apply IH; [|intros; apply POS; right; auto]. destruct K as [K|K]; auto. cbn [fst] in K. subst k.
  unfold keyb in KE. now rewrite !Nat.eqb_refl in KE.
Qed.

(** ** The theorems *)
Section Whole.
Variable fd : Q -> Q -> Q.
Variable mgr : nat -> Z.
Variable eps : Q.
Variable excl : bool.
Variable solver : lp -> nat -> Q.
Variable m : market.
Variable ts : list trade.
Hypothesis EPS : 0 <= eps.
Hypothesis XR : xreach m.
Hypothesis REG : registered m.
Hypothesis US : usable m.
Hypothesis SE : prog_exchange fd mgr eps excl solver m = Ok ts.

Let INV : xinv m := xreach_inv m XR.

Lemma run_of : (x_bbr m = [] /\ ts = []) \/ exists m1 g t g2 ps p,
  translate fd mgr m = Ok (m1, (g, t)) /\ prog_made fd eps excl g = Ok (g2, p) /\ same g g2 /\
  pseudo_cost g2 excl = Some ps /\ to_prog g2 excl ps = Ok p /\
  back_all t (prog_matches eps excl g2 (solver p)) = Ok ts.
Proof.
  unfold prog_exchange in SE. destruct (x_bbr m) as [|x0 bbr]; [injection SE; auto|]. right.
  destruct (translate fd mgr m) as [[m1 [g t]]|e|] eqn:T; try discriminate.
  unfold prog_solve in SE. destruct (prog_made fd eps excl g) as [[g2 p]|e|] eqn:PM; try discriminate. cbn [gr_matches] in SE.
  destruct (made_inv _ _ _ _ _ _ (rp_nomatch _ _ _ _ _ (translate_represents fd mgr m INV REG m1 g t T)) PM) as [SM [ps [PC TP]]].
  exists m1, g, t, g2, ps, p. auto 10.
Qed.

Hypothesis SF : solved feasible fd mgr eps excl solver m.

Lemma e_trades : NoDup (map td_bid ts) /\ forall tr, In tr ts ->
  In (td_bid tr) (all_bids m) /\ td_req tr = bd_req (bid_at m (td_bid tr)) /\
  0 < pref_for m (td_bid tr) /\ eps < td_amt tr.
Proof.
  destruct run_of as [[_ ->]|[m1 [g [t [g2 [ps [p [T [PM [SM [PC [TP BA]]]]]]]]]]]].
  - split; [constructor|intros tr []].
  - split; [|intros tr]; [eapply p_nodup|eapply p_real]; eauto.
Qed.

Lemma e_amounts tr : In tr ts ->
  (excl && excl_trade m tr = false -> td_amt tr <= rs_qty (rq_target (req_at m (td_req tr)))) /\
  (excl = true -> rq_excl (req_at m (td_req tr)) = true -> td_amt tr == rs_qty (rq_target (req_at m (td_req tr)))) /\
  (excl = true -> rq_excl (req_at m (td_req tr)) = false -> bd_excl (bid_at m (td_bid tr)) = true ->
     td_amt tr == rs_qty (bd_offer (bid_at m (td_bid tr)))).
Proof.
  intros I. destruct run_of as [[_ E]|[m1 [g [t [g2 [ps [p [T [PM [SM [PC [TP BA]]]]]]]]]]]]; [rewrite E in I; destruct I|].
  assert (FE := SF m1 g t g2 p T PM). eapply p_amount; eauto.
Qed.

Lemma e_supply k c : In k (x_bports m) -> In c (bp_cons (bp_at m k)) -> used m c (from_bport m k) ts <= cc_cap c.
Proof.
  intros I IC. destruct run_of as [[_ E]|[m1 [g [t [g2 [ps [p [T [PM [SM [PC [TP BA]]]]]]]]]]]].
  - rewrite E. change (used m c (from_bport m k) []) with 0.
    assert (LR : (k < length (m_bports m))%nat).
    { assert (FF := xi_xb m INV). rewrite Forall_forall in FF. auto. }
    destruct (bp_at_ok m k INV LR) as [_ [_ R3]]. specialize (R3 c IC). lra.
  - assert (FE := SF m1 g t g2 p T PM). eapply p_supply; eauto.
Qed.

Lemma e_exclusive tr1 tr2 : excl = true -> In tr1 ts -> In tr2 ts ->
  (td_req tr1 = td_req tr2 /\ rq_excl (req_at m (td_req tr1)) = true) \/
  (bd_port (bid_at m (td_bid tr1)) = bd_port (bid_at m (td_bid tr2)) /\
   rs_id (bd_offer (bid_at m (td_bid tr1))) = rs_id (bd_offer (bid_at m (td_bid tr2))) /\
   bd_excl (bid_at m (td_bid tr1)) = true /\ bd_excl (bid_at m (td_bid tr2)) = true) -> tr1 = tr2.
Proof.
  intros EX I1 I2 C. destruct run_of as [[_ E]|[m1 [g [t [g2 [ps [p [T [PM [SM [PC [TP BA]]]]]]]]]]]]; [rewrite E in I1; destruct I1|].
  assert (FE := SF m1 g t g2 p T PM). destruct C as [[C1 C2]|[C1 [C2 [C3 C4]]]].
  - eapply p_excl_req; eauto.
  - eapply p_excl_bid; eauto.
Qed.
End Whole.

Section Cheap.
Variable fd : Q -> Q -> Q.
Variable mgr : nat -> Z.
Variable eps : Q.
Variable solver : lp -> nat -> Q.
Variable m : market.
Variable ts : list trade.
Hypothesis EPS : 0 <= eps.
Hypothesis XR : xreach m.
Hypothesis REG : registered m.
Hypothesis US : usable m.
Hypothesis SE : prog_exchange fd mgr eps false solver m = Ok ts.
Hypothesis SO : solved optimal fd mgr eps false solver m.

Let INV : xinv m := xreach_inv m XR.

Lemma e_demand k : In k (x_rports m) -> 0 <= rp_qty (rp_at m k) ->
  exists c, In c (req_cons m k) /\ used m c (for_rport m k) ts <= cc_cap c.
Proof.
  intros I QP. destruct (run_of fd mgr eps false solver m ts XR REG SE) as [[_ E]|[m1 [g [t [g2 [ps [p [T [PM [SM [PC [TP BA]]]]]]]]]]]].
  - exists (mass_cons (rp_at m k)). split; [apply in_or_app; right; left; auto|]. rewrite E. exact QP.
  - assert (OP := SO m1 g t g2 p T PM). assert (FE := proj1 OP). eapply p_demand with (eps := eps) (excl := false) (g2 := g2) (p := p) (sol := solver p); eauto.
Qed.

Lemma e_shortage b c : x_bbr m <> [] -> In b (all_bids m) -> 0 < pref_for m b ->
  traded (from_bid b) ts + eps < rs_qty (rq_target (req_at m (bd_req (bid_at m b)))) ->
  (forall c', In c' (bp_cons (bp_at m (bd_port (bid_at m b)))) ->
     used m c' (from_bport m (bd_port (bid_at m b))) ts + eps * all_use m c' (bids_from m (bd_port (bid_at m b))) < cc_cap c') ->
  let k := rq_port (req_at m (bd_req (bid_at m b))) in
  (forall c', In c' (req_cons m k) -> 1 <= use m c' b) ->
  In c (req_cons m k) -> cc_cap c <= inject_Z (10 ^ 15) ->
  cc_cap c <= used m c (for_rport m k) ts + eps * all_use m c (bids_for m k).
Proof.
  intros NE. intros. destruct (run_of fd mgr eps false solver m ts XR REG SE) as [[E _]|[m1 [g [t [g2 [ps [p [T [PM [SM [PC [TP BA]]]]]]]]]]]]; [congruence|].
  assert (OP := SO m1 g t g2 p T PM). assert (FE := proj1 OP). eapply p_shortage with (eps := eps) (excl := false) (g2 := g2) (p := p) (sol := solver p); eauto.
Qed.
End Cheap.

Lemma e_outcome fd mgr eps tol solver m : fd_ok fd tol -> tol <= eps -> xreach m -> registered m -> usable m ->
  all_convertible m -> rated m -> asking m -> (forall b, In b (all_bids m) -> ~ pref_for m b == 0) ->
  exists ts, prog_exchange fd mgr eps true solver m = Ok ts.
Proof.
  intros FD TE XR REG US AC RT AS PN. assert (INV := xreach_inv m XR).
  destruct (translate_outcome fd mgr m INV REG AC RT) as [O _]. destruct (O (conj AS PN)) as [m1 [g [t T]]].
  assert (RP := translate_represents fd mgr m INV REG m1 g t T).
  assert (WB := translated_wb fd mgr m g t INV REG RP US (stage_asking fd mgr m m1 g t INV REG T)).
  destruct (solve_run fd eps tol (Some []) g FD TE WB) as [g1 [SV _]].
  assert (SM := greedy_leaves fd eps (Some []) g g1 (rp_nomatch _ _ _ _ _ RP) SV).
  unfold prog_exchange, prog_solve, prog_made. destruct (x_bbr m) as [|x0 bbr]; [eauto|]. rewrite T, SV.
  set (g2 := cleared (served_order g1)) in *. clearbody g2.
  assert (PR := same_ready g g2 SM (translated_ready fd mgr m m1 g t INV REG US T)).
  assert (POS : forall a, In a (gr_arcs g2) -> 0 < pref_of (unode g2 a) a).
  { intros a I. rewrite (same_unode g g2 SM). apply (arc_positive fd mgr m m1 g t INV REG US T). now rewrite <- (sm_arcs _ _ SM). }
  destruct (pseudo_excl_some g2 (gr_arcs g2) 0 POS (arc_pref_in g2 PR)) as [x PS].
  { intros a I. apply (arc_of_in g2 a (pr_keys _ PR) I). }
  unfold pseudo_cost. rewrite PS. cbn [option_map].
  match goal with |- context [to_prog g2 true ?ps] => destruct (prog_refuses g2 true ps PR) as [[_ [a [Ia Pa]]]|[p [TP _]]] end.
  - specialize (POS a Ia). lra.
  - rewrite TP. cbn [gr_matches]. destruct (back_all_ok fd mgr m g t RP (prog_matches eps true g2 (solver p))) as [ts [E _]]; [|eauto].
    intros a q I. rewrite <- (sm_arcs _ _ SM). eapply match_basic; eauto.
Qed.
