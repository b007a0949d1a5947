(** From the graph back to the exchange: the translated graph is well built, matches
    become trades, and the solver's bounds hold of the trades. *)
From Coq Require Import String QArith List Bool Arith ZArith Lia Lqa Permutation.
From Verif Require Import Base GreedyModel GreedySpec GreedyProofs1 GreedyProofs5 ExchangeModel ExchangeSpec
  ExchangeProofs1 ExchangeProofs2 ExchangeProofs3 ExchangeProofs4.
Import ListNotations.
Open Scope Q_scope.

Lemma Forall2_in_r {A B} (R : A -> B -> Prop) l l' y : Forall2 R l l' -> In y l' -> exists x, In x l /\ R x y.
Proof. induction 1; simpl; [contradiction|]. intros [<-|I]; eauto. destruct (IHForall2 I) as [z [? ?]]; eauto. Qed.
Lemma Forall2_in_l {A B} (R : A -> B -> Prop) l l' x : Forall2 R l l' -> In x l -> exists y, In y l' /\ R x y.
Proof. induction 1; simpl; [contradiction|]. intros [<-|I]; eauto. destruct (IHForall2 I) as [z [? ?]]; eauto. Qed.
Lemma Forall2_nth {A B} (R : A -> B -> Prop) l l' i x : Forall2 R l l' -> nth_error l i = Some x ->
  exists y, nth_error l' i = Some y /\ R x y.
Proof.
  intros F. revert i. induction F as [|a b l l' H F IH]; intros [|i]; simpl; try discriminate.
  - intros [= <-]. eauto.
  - apply IH.
Qed.
Lemma Forall2_len {A B} (R : A -> B -> Prop) l l' : Forall2 R l l' -> length l = length l'.
Proof. induction 1; simpl; auto. Qed.
Lemma map_some_in {A B} (f : A -> option B) l l' y : map Some l' = map f l -> In y l' -> exists x, In x l /\ f x = Some y.
Proof.
  intros E I. assert (J : In (Some y) (map f l)) by (rewrite <- E; now apply in_map).
  apply in_map_iff in J as [x [? ?]]. eauto.
Qed.
Lemma map_some_in2 {A B} (f : A -> option B) l l' x y : map Some l' = map f l -> In x l -> f x = Some y -> In y l'.
Proof.
  intros E I F. assert (J : In (Some y) (map Some l')) by (rewrite E, <- F; now apply in_map).
  apply in_map_iff in J as [z [[= ->] ?]]. auto.
Qed.

Section E2E.
Variable fd : Q -> Q -> Q.
Variable mgr : nat -> Z.
Variable m : market.
Variable g : graph.
Variable t : tctx.
Hypothesis INV : xinv m.
Hypothesis REG : registered m.
Hypothesis RP : represents fd mgr m g t.

Lemma req_home r : In r (all_reqs m) -> exists i n,
  nth_error (x_rports m) i = Some (rq_port (req_at m r)) /\
  In r (rp_reqs (rp_at m (rq_port (req_at m r)))) /\ nfind r (r2n t) = Some n /\
  node_is (node_at g n) i (rs_qty (rq_target (req_at m r))) (rq_excl (req_at m r))
            (rq_commod (req_at m r)) (mgr (rq_trader (req_at m r))).
Proof.
  intros I. assert (I' := I). apply in_flat_map in I' as [p [Ip Ir]].
  assert (LR : (p < length (m_rports m))%nat).
  { assert (FF := xi_xr m INV). rewrite Forall_forall in FF. auto. }
  destruct (rp_at_ok m p INV LR) as [_ [R1 _]]. destruct (R1 r Ir) as [_ [R2 _]].
  apply In_nth_error in Ip as [i Ei].
  assert (exists n, nfind r (r2n t) = Some n) as [n En].
  { assert (J : In (nfind r (r2n t)) (map Some (seq 0 (length (gr_nodes g))))).
    { rewrite (rp_nodes _ _ _ _ _ RP). apply in_or_app; left. now apply in_map with (f := fun r => nfind r (r2n t)). }
    apply in_map_iff in J as [n [J _]]. eauto. }
  exists i, n. rewrite R2. split; auto. split; auto. split; auto.
  apply (rp_rnode _ _ _ _ _ RP i p); auto.
Qed.
Lemma bid_home b : In b (all_bids m) -> exists i n,
  nth_error (x_bports m) i = Some (bd_port (bid_at m b)) /\
  In b (bp_bids (bp_at m (bd_port (bid_at m b)))) /\ nfind b (b2n t) = Some n /\
  0 < rs_qty (bd_offer (bid_at m b)) /\
  node_is (node_at g n) (length (x_rports m) + i) (rs_qty (bd_offer (bid_at m b)))
            (bd_excl (bid_at m b)) (rq_commod (req_at m (bd_req (bid_at m b))))
            (mgr (bd_trader (bid_at m b))).
Proof.
  intros I. assert (I' := I). apply in_flat_map in I' as [p [Ip Ir]].
  assert (LR : (p < length (m_bports m))%nat).
  { assert (FF := xi_xb m INV). rewrite Forall_forall in FF. auto. }
  destruct (bp_at_ok m p INV LR) as [_ [R1 _]]. destruct (R1 b Ir) as [_ [R2 [_ R3]]].
  apply In_nth_error in Ip as [i Ei].
  assert (exists n, nfind b (b2n t) = Some n) as [n En].
  { assert (J : In (nfind b (b2n t)) (map Some (seq 0 (length (gr_nodes g))))).
    { rewrite (rp_nodes _ _ _ _ _ RP). apply in_or_app; right. now apply in_map with (f := fun r => nfind r (b2n t)). }
    apply in_map_iff in J as [n [J _]]. eauto. }
  exists i, n. rewrite R2. split; auto. split; auto. split; auto. split; auto.
  apply (rp_bnode _ _ _ _ _ RP i p); auto.
Qed.

Lemma r2n_inj r r' n : nfind r (r2n t) = Some n -> nfind r' (r2n t) = Some n -> r = r'.
Proof. rewrite !(rp_back_r _ _ _ _ _ RP). congruence. Qed.
Lemma b2n_inj r r' n : nfind r (b2n t) = Some n -> nfind r' (b2n t) = Some n -> r = r'.
Proof. rewrite !(rp_back_b _ _ _ _ _ RP). congruence. Qed.

(** The bid behind an arc. *)
Definition arc_of (b : nat) (a : arc) : Prop :=
  In b (all_bids m) /\ liked m b = true /\
  nfind (bd_req (bid_at m b)) (r2n t) = Some (a_u a) /\ nfind b (b2n t) = Some (a_v a) /\
  a = arc_new fd (a_u a) (a_v a) (unode g a) (vnode g a).
Lemma arc_bid a : In a (gr_arcs g) -> exists b, arc_of b a.
Proof.
  intros I. destruct (Forall2_in_r _ _ _ a (rp_arcs _ _ _ _ _ RP) I) as [b [Ib [E1 [E2 E3]]]].
  apply filter_In in Ib as [Ib L]. exists b. repeat split; auto.
Qed.

(** Unit capacities are what the constraints say. *)
Lemma per_unit_use b a cs l t' : arc_of b a -> shown t' t b ->
  (forall c, In c cs -> offer_only c /\ 0 < use m c b) ->
  per_unit cs (bd_offer (bid_at m b)) (akey a) t' l ->
  length l = length cs /\ Forall (fun x => 0 < x) l /\
  (forall i c, nth_error cs i = Some c -> nth i l 0 == use m c b).
Proof.
  intros [IB [LK [U [V _]]]] SH US PU.
  destruct (bid_home b IB) as [_ [_ [_ [_ [_ [QP _]]]]]].
  assert (ONE : forall c x, In c cs -> (exists y, convert (cc_conv c) (bd_offer (bid_at m b)) (akey a) t' = Ok y /\
                            x = y / rs_qty (bd_offer (bid_at m b))) -> x == use m c b).
  { intros c x Ic [y [CV ->]]. destruct (US c Ic) as [OO UP]. unfold use, offer_only in *.
    destruct (cc_conv c) as [|co|f]; cbn [convert] in CV.
    - injection CV as <-. field. lra.
    - cbn [akey fst] in CV. destruct SH as [_ [E _]]. rewrite E in CV.
      rewrite (rp_back_r _ _ _ _ _ RP) in U. rewrite U in CV.
      destruct (nfind (bd_req (bid_at m b)) co) as [x|]; [|discriminate].
      injection CV as <-. field. lra.
    - injection CV as <-. rewrite (OO _ (akey a) t' (0%nat, 0%nat) tctx0). reflexivity. }
  split; [symmetry; exact (Forall2_len _ _ _ PU)|]. split.
  - apply Forall_forall. intros x Ix. destruct (Forall2_in_r _ _ _ _ PU Ix) as [c [Ic EX]].
    rewrite (ONE c x Ic EX). now apply US.
  - intros i c E. destruct (Forall2_nth _ _ _ _ _ PU E) as [x [Ex EX]].
    rewrite (nth_error_nth _ _ _ Ex). apply ONE; auto. eapply nth_error_In; eauto.
Qed.

Hypothesis US : usable m.
Hypothesis ASK : asking m.

Lemma arc_units b a : arc_of b a -> In a (gr_arcs g) ->
  let rc := req_cons m (rq_port (req_at m (bd_req (bid_at m b)))) in
  let bc := bp_cons (bp_at m (bd_port (bid_at m b))) in
  (length (ucaps_of (unode g a) a) = length rc /\ Forall (fun x => 0 < x) (ucaps_of (unode g a) a) /\
   forall i c, nth_error rc i = Some c -> uunit g a i == use m c b) /\
  (length (ucaps_of (vnode g a) a) = length bc /\ Forall (fun x => 0 < x) (ucaps_of (vnode g a) a) /\
   forall i c, nth_error bc i = Some c -> vunit g a i == use m c b).
Proof.
  intros AO IA rc bc. assert (AO' := AO). destruct AO' as [IB [_ [_ [V _]]]].
  destruct (rp_units _ _ _ _ _ RP b a IB IA V) as [t' [SH [PV PU]]].
  split; apply (per_unit_use b a _ _ t'); auto; intros c Ic; [apply (us_r m US)|apply (us_b m US)]; auto.
Qed.

Lemma arc_groups b a : arc_of b a -> exists i j,
  nth_error (x_rports m) i = Some (rq_port (req_at m (bd_req (bid_at m b)))) /\
  nth_error (x_bports m) j = Some (bd_port (bid_at m b)) /\
  ugroup g a = Some i /\ vgroup g a = Some (length (x_rports m) + j)%nat.
Proof.
  intros [IB [_ [U [V _]]]].
  destruct (req_home _ (rg_ans m REG b IB)) as [i [n [E1 [_ [E2 [E3 _]]]]]].
  destruct (bid_home b IB) as [j [n' [F1 [_ [F2 [_ [F3 _]]]]]]].
  rewrite E2 in U. injection U as ->. rewrite F2 in V. injection V as ->.
  exists i, j. auto.
Qed.

Lemma nodup_map_inj {A B} (f : A -> B) l : NoDup l ->
  (forall x y, In x l -> In y l -> f x = f y -> x = y) -> NoDup (map f l).
Proof.
  induction 1 as [|a l N D IH]; intros INJ; simpl; constructor.
  - intros I. apply in_map_iff in I as [x [E I]]. elim N. rewrite <- (INJ x a); simpl; auto.
  - apply IH. intros; apply INJ; simpl; auto.
Qed.

Lemma group_cases G : (exists p, nth_error (x_rports m) G = Some p) \/
  (exists i p, G = (length (x_rports m) + i)%nat /\ nth_error (x_bports m) i = Some p) \/
  (length (gr_groups g) <= G)%nat.
Proof.
  rewrite (rp_ngr _ _ _ _ _ RP).
  destruct (Nat.lt_ge_cases G (length (x_rports m))) as [L|L].
  - left. destruct (nth_error (x_rports m) G) eqn:E; eauto. apply nth_error_None in E. lia.
  - right. destruct (Nat.lt_ge_cases (G - length (x_rports m)) (length (x_bports m))) as [L2|L2].
    + left. exists (G - length (x_rports m))%nat.
      destruct (nth_error (x_bports m) (G - length (x_rports m))) eqn:E.
      * eexists; split; [lia|eauto].
      * apply nth_error_None in E. lia.
    + right. lia.
Qed.

Lemma translated_wb : well_built fd g.
Proof.
  constructor.
  - intros a IA. destruct (arc_bid a IA) as [b AO].
    destruct (arc_units b a AO IA) as [[L1 [P1 _]] [L2 [P2 _]]].
    destruct (arc_groups b a AO) as [i [j [E1 [E2 [G1 G2]]]]].
    destruct AO as [IB [_ [U [V AN]]]].
    destruct (req_home _ (rg_ans m REG b IB)) as [i' [n [E1' [IR _]]]].
    destruct (bid_home b IB) as [j' [n' [E2' [IBB _]]]].
    destruct (rp_rgroup _ _ _ _ _ RP i _ E1) as [_ [N1 C1]].
    destruct (rp_bgroup _ _ _ _ _ RP j _ E2) as [N2 C2].
    exists i, (length (x_rports m) + j)%nat.
    split; auto. split.
    { rewrite (rp_greq _ _ _ _ _ RP). apply in_seq. apply nth_error_lt in E1. lia. }
    split; [exact (map_some_in2 _ _ _ _ _ N1 IR U)|]. split; auto. split.
    { rewrite (rp_gsup _ _ _ _ _ RP). apply in_seq. apply nth_error_lt in E2. lia. }
    split; [exact (map_some_in2 _ _ _ _ _ N2 IBB V)|].
    split; [rewrite C1, map_length; auto|]. split; [rewrite C2, map_length; auto|]. auto.
  - intros G n IG IN. rewrite (rp_greq _ _ _ _ _ RP) in IG. apply in_seq in IG.
    destruct (nth_error (x_rports m) G) as [p|] eqn:E; [|apply nth_error_None in E; lia].
    destruct (rp_rgroup _ _ _ _ _ RP G p E) as [_ [N1 _]].
    destruct (map_some_in _ _ _ _ N1 IN) as [r [Ir Er]].
    apply (rp_rnode _ _ _ _ _ RP G p r n E Ir Er).
  - intros G IG. rewrite (rp_greq _ _ _ _ _ RP) in IG. apply in_seq in IG.
    destruct (nth_error (x_rports m) G) as [p|] eqn:E; [|apply nth_error_None in E; lia].
    destruct (rp_rgroup _ _ _ _ _ RP G p E) as [_ [N1 _]].
    apply (NoDup_map_inv Some). rewrite N1.
    assert (LR : (p < length (m_rports m))%nat).
    { assert (FF := xi_xr m INV). rewrite Forall_forall in FF. apply FF. eapply nth_error_In; eauto. }
    destruct (rp_at_ok m p INV LR) as [ND _].
    apply nodup_map_inj; auto. intros x y Ix Iy EQ.
    assert (In (nfind x (r2n t)) (map Some (g_nodes (group_at g G)))) as J.
    { rewrite N1. now apply in_map with (f := fun r => nfind r (r2n t)). }
    apply in_map_iff in J as [n [J _]]. apply (r2n_inj x y n); congruence.
  - intros G IG IS. rewrite (rp_greq _ _ _ _ _ RP) in IG. rewrite (rp_gsup _ _ _ _ _ RP) in IS.
    apply in_seq in IG. apply in_seq in IS. lia.
  - rewrite (rp_greq _ _ _ _ _ RP). apply seq_NoDup.
  - intros G i c E. destruct (group_cases G) as [[p EP]|[[j [p [-> EP]]]|L]].
    + destruct (rp_rgroup _ _ _ _ _ RP G p EP) as [_ [_ C]]. rewrite C in E.
      apply nth_error_In in E. apply in_map_iff in E as [cc [[= <-] Ic]].
      assert (IP := nth_error_In _ _ EP).
      assert (LR : (p < length (m_rports m))%nat).
      { assert (FF := xi_xr m INV). rewrite Forall_forall in FF. auto. }
      destruct (rp_at_ok m p INV LR) as [_ [_ PC]].
      apply in_app_or in Ic as [Ic|[<-|[]]]; [apply PC in Ic; lra|].
      specialize (ASK p IP). cbn [mass_cons cc_cap]. lra.
    + destruct (rp_bgroup _ _ _ _ _ RP j p EP) as [_ C]. rewrite C in E.
      apply nth_error_In in E. apply in_map_iff in E as [cc [[= <-] Ic]].
      assert (LR : (p < length (m_bports m))%nat).
      { assert (FF := xi_xb m INV). rewrite Forall_forall in FF. apply FF. eapply nth_error_In; eauto. }
      destruct (bp_at_ok m p INV LR) as [_ [_ PC]]. apply PC in Ic. lra.
    + unfold group_at in E. rewrite nth_overflow in E by auto. simpl in E. destruct i; discriminate.
  - intros n. destruct (Nat.lt_ge_cases n (length (gr_nodes g))) as [L|L].
    + assert (J : In (Some n) (map Some (seq 0 (length (gr_nodes g))))) by (apply in_map; apply in_seq; lia).
      rewrite (rp_nodes _ _ _ _ _ RP) in J. apply in_app_or in J as [J|J]; apply in_map_iff in J as [x [E I]].
      * destruct (req_home x I) as [i [k [_ [_ [F NI]]]]]. rewrite E in F. injection F as <-.
        destruct NI as [_ [-> _]]. now apply (us_target m US).
      * destruct (bid_home x I) as [i [k [_ [_ [F [QP NI]]]]]]. rewrite E in F. injection F as <-.
        destruct NI as [_ [-> _]]. lra.
    + unfold node_at. rewrite nth_overflow by auto. simpl. lra.
  - intros G IG. rewrite (rp_greq _ _ _ _ _ RP) in IG. apply in_seq in IG.
    destruct (nth_error (x_rports m) G) as [p|] eqn:E; [|apply nth_error_None in E; lia].
    destruct (rp_rgroup _ _ _ _ _ RP G p E) as [-> _].
    specialize (ASK p (nth_error_In _ _ E)). lra.
  - apply (rp_nomatch _ _ _ _ _ RP).
Qed.

(** ** Matches and trades *)
Definition trade_of (mt : arc * Q) (tr : trade) : Prop :=
  arc_of (td_bid tr) (fst mt) /\ In (fst mt) (gr_arcs g) /\
  td_req tr = bd_req (bid_at m (td_bid tr)) /\ td_amt tr = snd mt.

Lemma back_match_ok a q : In a (gr_arcs g) -> exists b,
  arc_of b a /\ back_match t (a, q) = Ok (mkTrade (bd_req (bid_at m b)) b q).
Proof.
  intros I. destruct (arc_bid a I) as [b AO]. exists b. split; auto.
  destruct AO as [_ [_ [U [V _]]]]. unfold back_match. cbn [fst snd].
  rewrite (rp_back_r _ _ _ _ _ RP) in U. rewrite (rp_back_b _ _ _ _ _ RP) in V. now rewrite U, V.
Qed.
Lemma back_all_ok ms : (forall a q, In (a, q) ms -> In a (gr_arcs g)) ->
  exists ts, back_all t ms = Ok ts /\ Forall2 trade_of ms ts.
Proof.
  induction ms as [|[a q] ms IH]; intros H; simpl.
  - exists []. auto.
  - destruct IH as [ts [E F]]; [intros; eapply H; simpl; eauto|].
    assert (IA : In a (gr_arcs g)) by (eapply H; simpl; eauto).
    destruct (back_match_ok a q IA) as [b [AO ->]]. rewrite E.
    eexists. split; [reflexivity|]. constructor; auto.
    unfold trade_of. cbn [td_bid td_req td_amt fst snd]. auto.
Qed.

Lemma qsum_filter {A} (P : A -> bool) (f : A -> Q) l :
  qsum (map f (filter P l)) == qsum (map (fun x => if P x then f x else 0) l).
Proof. induction l as [|x l IH]; simpl; [reflexivity|]. destruct (P x); simpl; rewrite IH; lra. Qed.
Lemma sum_trades ms ts (f : arc -> Q -> Q) (P : trade -> bool) (h : trade -> Q) :
  Forall2 trade_of ms ts ->
  (forall a q tr, trade_of (a, q) tr -> f a q == if P tr then h tr else 0) ->
  sum_over ms f == qsum (map h (filter P ts)).
Proof.
  intros F H. rewrite qsum_filter. unfold sum_over.
  induction F as [|[a q] tr ms ts T F IH]; simpl; [reflexivity|].
  rewrite IH. rewrite (H a q tr T). reflexivity.
Qed.

Lemma traded_request ms ts r n : Forall2 trade_of ms ts -> nfind r (r2n t) = Some n ->
  on_unode ms n == traded (for_request r) ts.
Proof.
  intros F E. unfold on_unode, traded. apply sum_trades; auto.
  intros a q tr [AO [_ [ER EA]]]. cbn [fst snd] in *. unfold for_request. rewrite ER, EA.
  destruct AO as [_ [_ [U _]]].
  destruct (Nat.eqb_spec (a_u a) n) as [X|X]; destruct (Nat.eqb_spec (bd_req (bid_at m (td_bid tr))) r) as [Y|Y]; try reflexivity.
  - elim Y. subst n. now apply (r2n_inj _ _ (a_u a)).
  - elim X. congruence.
Qed.
Lemma traded_bid ms ts b n : Forall2 trade_of ms ts -> nfind b (b2n t) = Some n ->
  on_vnode ms n == traded (from_bid b) ts.
Proof.
  intros F E. unfold on_vnode, traded. apply sum_trades; auto.
  intros a q tr [AO [_ [ER EA]]]. cbn [fst snd] in *. unfold from_bid. rewrite EA.
  destruct AO as [_ [_ [_ [V _]]]].
  destruct (Nat.eqb_spec (a_v a) n) as [X|X]; destruct (Nat.eqb_spec (td_bid tr) b) as [Y|Y]; try reflexivity.
  - elim Y. subst n. now apply (b2n_inj _ _ (a_v a)).
  - elim X. congruence.
Qed.

Lemma is_ugroup a tr q i p : trade_of (a, q) tr -> nth_error (x_rports m) i = Some p ->
  is_group (ugroup g a) i = for_rport m p tr.
Proof.
  intros [AO [_ [ER _]]] E. cbn [fst] in AO. destruct (arc_groups _ _ AO) as [i' [j [E1 [_ [G1 _]]]]].
  rewrite G1. cbn [is_group]. unfold for_rport. rewrite ER.
  destruct (Nat.eqb_spec i' i) as [X|X]; destruct (Nat.eqb_spec (rq_port (req_at m (bd_req (bid_at m (td_bid tr))))) p) as [Y|Y]; auto.
  - elim Y. congruence.
  - elim X. apply (nth_error_unique _ _ _ p (rg_r m REG)); congruence.
Qed.
Lemma is_vgroup a tr q j p : trade_of (a, q) tr -> nth_error (x_bports m) j = Some p ->
  is_group (vgroup g a) (length (x_rports m) + j) = from_bport m p tr.
Proof.
  intros [AO _] E. cbn [fst] in AO. destruct (arc_groups _ _ AO) as [i [j' [_ [E1 [_ G1]]]]].
  rewrite G1. cbn [is_group]. unfold from_bport.
  destruct (Nat.eqb_spec (length (x_rports m) + j') (length (x_rports m) + j)) as [X|X];
    destruct (Nat.eqb_spec (bd_port (bid_at m (td_bid tr))) p) as [Y|Y]; auto.
  - elim Y. assert (j' = j) by lia. congruence.
  - elim X. f_equal. apply (nth_error_unique _ _ _ p (rg_b m REG)); congruence.
Qed.

Lemma traded_rport ms ts i p : Forall2 trade_of ms ts -> nth_error (x_rports m) i = Some p ->
  on_group g ms i == traded (for_rport m p) ts.
Proof.
  intros F E. unfold on_group, traded. apply sum_trades; auto.
  intros a q tr T. rewrite (is_ugroup a tr q i p T E). destruct T as [_ [_ [_ EA]]]. cbn [snd] in EA. rewrite EA. reflexivity.
Qed.
Lemma used_bport ms ts j p k c : Forall2 trade_of ms ts -> nth_error (x_bports m) j = Some p ->
  nth_error (bp_cons (bp_at m p)) k = Some c ->
  vload g ms (length (x_rports m) + j) k == used m c (from_bport m p) ts.
Proof.
  intros F E EC. unfold vload, used. apply sum_trades; auto.
  intros a q tr T. rewrite (is_vgroup a tr q j p T E). destruct (from_bport m p tr) eqn:FB; [|reflexivity].
  destruct T as [AO [IA [_ EA]]]. cbn [fst snd] in *. rewrite EA.
  unfold from_bport in FB. apply Nat.eqb_eq in FB.
  destruct (arc_units _ _ AO IA) as [_ [_ [_ H]]]. rewrite FB in H. rewrite (H k c EC). reflexivity.
Qed.
Lemma used_rport ms ts i p k c : Forall2 trade_of ms ts -> nth_error (x_rports m) i = Some p ->
  nth_error (req_cons m p) k = Some c ->
  uload g ms i k == used m c (for_rport m p) ts.
Proof.
  intros F E EC. unfold uload, used. apply sum_trades; auto.
  intros a q tr T. rewrite (is_ugroup a tr q i p T E). destruct (for_rport m p tr) eqn:FB; [|reflexivity].
  destruct T as [AO [IA [ER EA]]]. cbn [fst snd] in *. rewrite EA.
  unfold for_rport in FB. apply Nat.eqb_eq in FB. rewrite ER in FB.
  destruct (arc_units _ _ AO IA) as [[_ [_ H]] _]. rewrite FB in H. rewrite (H k c EC). reflexivity.
Qed.

(** ** The solver's bounds, for trades *)
Variable eps tol : Q.
Variable w : option weights.
Hypothesis FD : fd_ok fd tol.
Hypothesis TE : tol <= eps.
Variable g' : graph.
Hypothesis SV : solve fd eps w g = Ok g'.
Variable ts : list trade.
Hypothesis BA : back_all t (gr_matches g') = Ok ts.

Lemma the_trades : Forall2 trade_of (gr_matches g') ts.
Proof.
  destruct (back_all_ok (gr_matches g')) as [ts' [E F]].
  - intros a q I. now destruct (match_real fd eps tol w g FD TE translated_wb g' SV a q I).
  - rewrite BA in E. injection E as <-. exact F.
Qed.
Lemma trades_real tr : In tr ts -> In (td_bid tr) (all_bids m) /\ td_req tr = bd_req (bid_at m (td_bid tr)) /\
  0 < pref_for m (td_bid tr) /\ eps < td_amt tr.
Proof.
  intros I. destruct (Forall2_in_r _ _ _ tr the_trades I) as [[a q] [IM [AO [IA [ER EA]]]]].
  cbn [fst snd] in *. destruct AO as [IB [LK _]]. split; auto. split; auto. split.
  - unfold liked in LK. destruct (Qltb_spec 0 (pref_for m (td_bid tr))); auto; discriminate.
  - rewrite EA. eapply match_real; eauto using translated_wb.
Qed.
Lemma request_bound r : In r (all_reqs m) -> traded (for_request r) ts <= rs_qty (rq_target (req_at m r)) + tol.
Proof.
  intros I. destruct (req_home r I) as [i [n [_ [_ [E [_ [NQ _]]]]]]].
  rewrite <- (traded_request _ _ r n the_trades E), <- NQ.
  apply (node_bound_g fd eps tol w g FD TE translated_wb g' SV n).
Qed.
Lemma bid_bound b : In b (all_bids m) -> traded (from_bid b) ts <= rs_qty (bd_offer (bid_at m b)) + tol.
Proof.
  intros I. destruct (bid_home b I) as [i [n [_ [_ [E [_ [_ [NQ _]]]]]]]].
  rewrite <- (traded_bid _ _ b n the_trades E), <- NQ.
  apply (node_bound_g fd eps tol w g FD TE translated_wb g' SV n).
Qed.
Lemma rport_bound p : In p (x_rports m) -> traded (for_rport m p) ts <= rp_qty (rp_at m p) + tol.
Proof.
  intros I. apply In_nth_error in I as [i E].
  rewrite <- (traded_rport _ _ i p the_trades E).
  destruct (rp_rgroup _ _ _ _ _ RP i p E) as [<- _].
  apply (group_bound_g fd eps tol w g FD TE translated_wb g' SV).
  rewrite (rp_greq _ _ _ _ _ RP). apply in_seq. apply nth_error_lt in E. lia.
Qed.
Lemma bport_bound p c U : In p (x_bports m) -> In c (bp_cons (bp_at m p)) -> 0 <= U ->
  (forall b, In b (bp_bids (bp_at m p)) -> use m c b <= U) ->
  used m c (from_bport m p) ts <= cc_cap c + tol * U.
Proof.
  intros I IC UP UB. apply In_nth_error in I as [j E]. apply In_nth_error in IC as [k EC].
  rewrite <- (used_bport _ _ j p k c the_trades E EC).
  destruct (rp_bgroup _ _ _ _ _ RP j p E) as [_ CE].
  apply (sup_bound_g fd eps tol w g FD TE translated_wb g' SV).
  - rewrite CE, nth_error_map, EC. auto.
  - auto.
  - intros a IA VG. destruct (arc_bid a IA) as [b AO].
    destruct (arc_groups b a AO) as [i' [j' [_ [E2 [_ G2]]]]]. rewrite VG in G2.
    assert (j' = j) by (injection G2; lia). subst j'.
    assert (H0 : bd_port (bid_at m b) = p) by congruence.
    destruct (arc_units b a AO IA) as [_ [_ [_ H]]]. rewrite H0 in H.
    rewrite (H k c EC). apply UB. destruct AO as [IB _]. destruct (bid_home b IB) as [_ [_ [_ [X _]]]].
    now rewrite H0 in X.
Qed.
(** The quantity of a portfolio without further constraints, weighted by the
    coefficients of its requests. *)
Lemma mass_bound p U : In p (x_rports m) -> rp_cons (rp_at m p) = [] -> 0 <= U ->
  (forall r x, In r (rp_reqs (rp_at m p)) -> nfind r (rp_coeffs (rp_at m p)) = Some x -> x <= U) ->
  used m (mass_cons (rp_at m p)) (for_rport m p) ts <= rp_qty (rp_at m p) + tol * U.
Proof.
  intros I NC UP UB. assert (IP := I). apply In_nth_error in I as [i E].
  assert (RC : req_cons m p = [mass_cons (rp_at m p)]) by (unfold req_cons; now rewrite NC).
  rewrite <- (used_rport _ _ i p 0 (mass_cons (rp_at m p)) the_trades E) by (now rewrite RC).
  destruct (rp_rgroup _ _ _ _ _ RP i p E) as [_ [_ CE]]. rewrite RC in CE. cbn [map mass_cons cc_cap] in CE.
  apply (req_bound_single fd eps tol w g FD TE translated_wb g' SV); auto.
  intros a IA VG. destruct (arc_bid a IA) as [b AO].
  destruct (arc_groups b a AO) as [i' [j' [E2 [_ [G2 _]]]]]. rewrite VG in G2.
  injection G2 as <-. assert (EP : rq_port (req_at m (bd_req (bid_at m b))) = p) by congruence.
  destruct (arc_units b a AO IA) as [[_ [_ H]] _]. rewrite EP, RC in H.
  rewrite (H 0%nat (mass_cons (rp_at m p)) eq_refl).
  destruct AO as [IB _]. destruct (req_home _ (rg_ans m REG b IB)) as [_ [_ [_ [X _]]]]. rewrite EP in X.
  unfold use. cbn [mass_cons cc_conv].
  destruct (nfind (bd_req (bid_at m b)) (rp_coeffs (rp_at m p))) as [x|] eqn:EX; [|auto].
  now apply (UB _ _ X).
Qed.
End E2E.
