(** The market of a step, and the trades the solver makes of it. *)
From Coq Require Import String QArith List Bool Arith ZArith Lia Lqa Sorted.
From Verif Require Import Base CompModel PackageModel ResourceModel BufModel GreedyModel GreedySpec ExchangeModel ExchangeSpec TradeModel DreModel DreSpec
  GreedyProofs5 GreedyProofs6 GreedyProperties ExchangeProofs1 ExchangeProofs4 ExchangeProofs5 ExchangeProofs7 ExchangeProofs9 DreProofs1 DreProofs2 DreProofs3 DreProofs4 DreProofs5
  FacModel FacSpec FacProofs1 FacProofs2 FacProofs3.
Import ListNotations.
Open Scope Q_scope.

Lemma leave_up l : forall (s : state) p, exists ev, adjust_up state leave_t l p s = (Ok p, (ev, s)).
Proof.
  induction l as [|a l IH]; intros s p; cbn; [eauto|]. destruct (IH s p) as (ev & ->). eauto.
Qed.
Lemma leave_one anc t m (s : state) : exists xp ev,
  adjust_prefs state anc leave_t leave_t t m s = (Ok (set_xprefs m xp), (ev, s)).
Proof.
  unfold adjust_prefs. destruct (leave_up (anc t) s (orempty (nfind t (x_prefs m)))) as (ev & A).
  unfold leave_t at 1. rewrite A. eexists; eexists. reflexivity.
Qed.
Lemma leave_each anc l : forall m (s : state), exists xp ev,
  for_each state (adjust_prefs state anc leave_t leave_t) l m s = (Ok (set_xprefs m xp), (ev, s)).
Proof.
  induction l as [|t l IH]; intros m s.
  - exists (x_prefs m), []. cbn. now destruct m.
  - destruct (leave_one anc t m s) as (xp & ev & A). destruct (IH (set_xprefs m xp) s) as (xp2 & ev2 & A2).
    cbn [for_each]. rewrite A, A2. eexists; eexists. reflexivity.
Qed.

Lemma map_inj_in {A B} (f : A -> B) l x y : NoDup (map f l) -> In x l -> In y l -> f x = f y -> x = y.
Proof.
  induction l as [|z l IH]; cbn; intros ND IX IY EQ; [contradiction|]. inversion ND as [|? ? NI ND']; subst.
  destruct IX as [->|IX], IY as [->|IY]; auto.
  - exfalso. apply NI. rewrite EQ. now apply in_map.
  - exfalso. apply NI. rewrite <- EQ. now apply in_map.
Qed.
Lemma turn_nodup mgr l : StronglySorted (turn mgr) l -> NoDup l.
Proof.
  induction 1 as [|t l S IH F]; constructor; auto. intros I. rewrite Forall_forall in F. apply F in I.
  unfold turn in I. lia.
Qed.

(** Everything that is known about the market of a step. *)
Record marketplace (eps : Q) (fs : list fac) (w : world) (m : market) (owners bowners : list nat) : Prop := mkMP {
  mp_asked : asked_for eps fs owners w m;
  mp_owners : NoDup owners;
  mp_posting : forall t, In t owners <-> (t < length fs)%nat /\ posting eps fs t = true;
  mp_offered : offered fs m bowners m;
  mp_bowners : NoDup bowners;
  mp_covered : forall t, (t < length fs)%nat -> covered fs m m t;
  mp_shown : forall r, In r (all_reqs m) -> In r (shown_for (x_commod m) (rq_commod (req_at m r))) }.

Section Step.
Variable E : env.
Variable eps : Q.
Variable recipes : string -> option nat.
Variable place : nat -> nat.
Variable mgr : nat -> Z.
Variable ancestors : nat -> list nat.
Hypothesis EPS : 0 <= eps.

Definition Coll (w : world) (fs : list fac) :=
  collect state mgr ancestors (fac_requests E eps recipes) (fac_bids recipes place) leave_t leave_t (seq 0 (length fs)) (w, fs).

Lemma market_made w fs :
  (forall n c, recipes n = Some c -> (c < length (w_comps w))%nat) ->
  (forall t f, nth_error fs t = Some f -> set_up recipes f) ->
  exists m ev w1 owners bowners, Coll w fs = (Ok m, (ev, (w1, fs))) /\ keeps w w1 /\ marketplace eps fs w1 m owners bowners.
Proof.
  intros RC SU. unfold Coll, collect, add_all_requests, add_all_bids, adjust_everyone.
  destruct (init_in_turn mgr (seq 0 (length fs))) as (SS & IN).
  set (l := init_traders mgr (seq 0 (length fs))) in *.
  assert (ND : NoDup l) by (eapply turn_nodup; eauto).
  assert (FL : Forall (fun t => (t < length fs)%nat) l).
  { apply Forall_forall. intros t I. apply IN in I. apply in_seq in I. lia. }
  destruct (all_requests_forward E eps recipes fs EPS l w market0 []) as (m1 & ev1 & w1 & A1 & K1 & AF); auto.
  { split; [constructor|constructor|reflexivity]. }
  cbn [app] in AF. rewrite A1.
  pose proof (requests_collected state (fac_requests E eps recipes) (requests_fair E eps recipes) _ _ _ _ _ A1) as (RI & _ & _ & _ & _ & MB & MBP).
  assert (SH : forall c r, In r (shown_for (x_commod m1) c) -> (r < length (m_reqs m1))%nat /\ rq_commod (req_at m1 r) = c).
  { intros c r I. rewrite (ri_shown _ RI) in I. apply filter_In in I. destruct I as (I & C). apply String.eqb_eq in C. split; auto.
    eapply all_reqs_lt; eauto. apply xreach_inv. now apply ri_reach. }
  destruct (all_bids_forward recipes place fs m1 l w1 m1 []) as (m2 & ev2 & w2 & A2 & K2 & (bo & NB & OF) & CV & _); auto.
  { intros n c R. apply RC in R. pose proof (kp_comps _ _ K1). lia. }
  { eapply Forall_impl; [|exact (af_reqs _ _ _ _ _ AF)]. intros q (f & _ & _ & P & -> & _). lra. }
  { split; auto; rewrite ?MB, ?MBP; auto. rewrite (ri_xb _ RI). reflexivity. }
  rewrite A2. destruct (leave_each ancestors (x_requesters m2) m2 (w2, fs)) as (xp & ev3 & A3). rewrite A3.
  exists (set_xprefs m2 xp), (ev1 ++ ev2 ++ ev3), w2, (filter (posting eps fs) l), bo. split; [reflexivity|].
  split; [eapply keeps_trans; eauto|].
  destruct OF as [O1 O2 O3 O4 O5 O6 O7].
  split; auto.
  - destruct AF as [AR AP AX]. split.
    + cbn. rewrite O1. eapply Forall_impl; [|exact AR]. intros; eapply req_keeps; eauto.
    + cbn. rewrite O2. eapply Forall2_mono; [|exact AP]. intros t rp P.
      apply (port_more eps fs m1 (set_xprefs m2 xp) t rp []); auto. cbn. now rewrite app_nil_r.
    + cbn. rewrite O3, O2. exact AX.
  - now apply NoDup_filter.
  - intros t. rewrite filter_In, (IN t), in_seq. intuition lia.
  - split; auto.
    + cbn. eapply Forall_impl; [|exact O5]. intros q (f & B1 & B2 & B3 & B4 & B5). exists f. unfold req_at in *. cbn. rewrite O1. auto.
  - intros t LT f c r N OC I. cbn in I. rewrite O4 in I.
    assert (IT : In t l) by (apply IN, in_seq; lia).
    destruct (CV t IT f c r N OC I) as (p & bp & b & q & H). exists p, bp, b, q. unfold req_at in *. cbn. rewrite O1. exact H.
  - intros r I. cbn. rewrite O4, (ri_shown _ RI). apply filter_In. unfold all_reqs, rp_at, req_at in *. cbn in *. rewrite O1, O2, O3 in *.
    split; auto. apply String.eqb_refl.
Qed.
End Step.

Section Market.
Variable eps : Q.
Variable fs : list fac.
Variable w : world.
Variable m : market.
Variables owners bowners : list nat.
Hypothesis EPS : 0 <= eps.
Hypothesis MP : marketplace eps fs w m owners bowners.
Hypothesis XR : xreach m.
Hypothesis REG : registered m.
Hypothesis PF : forall b, In b (all_bids m) -> pref_for m b = stated_pref m b.

Let AF := mp_asked _ _ _ _ _ _ MP.
Let OF := mp_offered _ _ _ _ _ _ MP.
Let INV := xreach_inv m XR.

Lemma port_of p : In p (x_rports m) -> exists t, nth_error owners p = Some t /\ port_ok eps fs m t (rp_at m p).
Proof.
  intros I. rewrite (af_x _ _ _ _ _ AF) in I. apply in_seq in I.
  pose proof (Forall2_len _ _ _ (af_ports _ _ _ _ _ AF)) as L.
  destruct (nth_error owners p) as [t|] eqn:N; [|apply nth_error_None in N; lia].
  destruct (Forall2_nth _ _ _ _ _ (af_ports _ _ _ _ _ AF) N) as (rp & NR & P). exists t. split; auto.
  unfold rp_at. now rewrite (nth_error_nth _ _ _ NR).
Qed.
Lemma bport_of p : In p (x_bports m) -> exists t, nth_error bowners p = Some t /\ bport_ok fs m t (bp_at m p).
Proof.
  intros I. rewrite (of_x _ _ _ _ OF) in I. apply in_seq in I.
  pose proof (Forall2_len _ _ _ (of_ports _ _ _ _ OF)) as L.
  destruct (nth_error bowners p) as [t|] eqn:N; [|apply nth_error_None in N; lia].
  destruct (Forall2_nth _ _ _ _ _ (of_ports _ _ _ _ OF) N) as (bp & NR & P). exists t. split; auto.
  unfold bp_at. now rewrite (nth_error_nth _ _ _ NR).
Qed.
Lemma req_place r : In r (all_reqs m) -> In (rq_port (req_at m r)) (x_rports m) /\
  In r (rp_reqs (rp_at m (rq_port (req_at m r)))) /\ req_ok eps fs w (req_at m r).
Proof.
  intros I. apply in_flat_map in I. destruct I as (p & IP & I).
  assert (LP : (p < length (m_rports m))%nat) by (rewrite (af_x _ _ _ _ _ AF) in IP; apply in_seq in IP; lia).
  destruct (xi_r _ INV p (rp_at m p)) as (_ & H & _); [now apply nth_error_at|]. destruct (H r I) as (L & <- & _).
  split; auto. split; auto. pose proof (af_reqs _ _ _ _ _ AF) as F. rewrite Forall_forall in F. apply F. now apply nth_In.
Qed.
Lemma bid_place b : In b (all_bids m) -> In (bd_port (bid_at m b)) (x_bports m) /\
  In b (bp_bids (bp_at m (bd_port (bid_at m b)))) /\ bid_ok fs m (bid_at m b).
Proof.
  intros I. apply in_flat_map in I. destruct I as (p & IP & I).
  assert (LP : (p < length (m_bports m))%nat) by (rewrite (of_x _ _ _ _ OF) in IP; apply in_seq in IP; lia).
  destruct (xi_b _ INV p (bp_at m p)) as (_ & H & _); [now apply nth_error_at|]. destruct (H b I) as (L & <- & _).
  split; auto. split; auto. pose proof (of_bids _ _ _ _ OF) as F. rewrite Forall_forall in F. apply F. now apply nth_In.
Qed.

Lemma m_usable : usable m.
Proof.
  split.
  - intros r I. destruct (req_place r I) as (_ & _ & f & _ & _ & P & -> & _). lra.
  - intros b c I IC. apply (rg_ans _ REG) in I. destruct (req_place _ I) as (IP & IR & _).
    destruct (port_of _ IP) as (t & _ & f & _ & P & CO & _ & _ & _ & _ & CF).
    unfold req_cons in IC. rewrite CO in IC. cbn in IC. destruct IC as [<-|[<-|[]]].
    + split; cbn; [exact Logic.I|reflexivity].
    + unfold mass_cons, offer_only, use. cbn. split; [exact Logic.I|]. rewrite (CF _ IR). reflexivity.
  - intros b c I IC. destruct (bid_place b I) as (IP & _). destruct (bport_of _ IP) as (t & _ & f & _ & _ & _ & CO & _).
    rewrite CO in IC. cbn in IC. destruct IC as [<-|[]]. split; cbn; [exact Logic.I|reflexivity].
Qed.
Lemma m_asking : asking m.
Proof.
  intros p I. destruct (port_of p I) as (t & _ & f & _ & P & _ & _ & _ & NE & Q & _). rewrite Q.
  destruct (wanted_commods f) as [|c l]; [contradiction|]. cbn [length]. rewrite Nat2Z.inj_succ.
  assert (L : 1 <= inject_Z (Z.succ (Z.of_nat (length l)))).
  { change 1 with (inject_Z 1). rewrite <- Zle_Qle. lia. }
  apply Qmult_lt_0_compat; lra.
Qed.
Lemma m_pref b : In b (all_bids m) -> pref_for m b == 1.
Proof.
  intros I. rewrite (PF b I). unfold stated_pref. destruct (bid_place b I) as (_ & _ & f & _ & _ & (-> & _) & _).
  apply (rg_ans _ REG) in I. destruct (req_place _ I) as (_ & _ & g & _ & _ & _ & _ & (-> & _) & _). reflexivity.
Qed.
Lemma m_rated : rated m.
Proof.
  intros b I. pose proof (m_pref b I) as P. unfold pref_for in P. unfold has_prefs.
  destruct (nfind _ (x_prefs m)); eauto. exfalso. lra.
Qed.
Lemma m_conv : all_convertible m.
Proof.
  split; intros p I c co r IC CC _.
  - destruct (port_of p I) as (t & _ & f & _ & _ & CO & _). rewrite CO in IC. destruct IC as [<-|[]]. discriminate.
  - destruct (bport_of p I) as (t & _ & f & _ & _ & _ & CO & _). rewrite CO in IC. destruct IC as [<-|[]]. discriminate.
Qed.

Variable fd : Q -> Q -> Q.
Variable mgr : nat -> Z.
Variable tol : Q.
Variable wt : option weights.
Hypothesis FD : fd_ok fd tol.
Hypothesis TE : tol <= eps.

Lemma m_solved : exists ts, solve_exchange fd mgr eps wt m = Ok ts.
Proof.
  unfold solve_exchange. destruct (x_bbr m); [eauto|].
  destruct (translate_outcome fd mgr m INV REG m_conv m_rated) as (T & _).
  destruct T as (m1 & g & t & T).
  { split; [exact m_asking|]. intros b I. rewrite (m_pref b I). discriminate. }
  rewrite T. pose proof (translate_represents fd mgr m INV REG m1 g t T) as RP.
  pose proof (translated_wb fd mgr m g t INV REG RP m_usable m_asking) as WB.
  destruct (C17_solve_succeeds fd eps tol wt g FD TE WB) as (g' & SV). rewrite SV.
  destruct (back_all_ok fd mgr m g t RP (gr_matches g')) as (ts & B & _); [|eauto].
  intros a q I. now destruct (match_real fd eps tol wt g FD TE WB g' SV a q I).
Qed.

(** *** What is traded *)
Variable ts : list trade.
Hypothesis SE : solve_exchange fd mgr eps wt m = Ok ts.
Let US := m_usable.

Lemma trade_real tr : In tr ts -> exists f g,
  nth_error fs (bidder_of m tr) = Some f /\ offered_commod f = Some (commod_of m tr) /\
  nth_error fs (requester_of m tr) = Some g /\ In (commod_of m tr) (wanted_commods g) /\
  eps < wanted_amount g /\ eps < td_amt tr /\ target_ok w (rq_target (req_at m (td_req tr))).
Proof.
  intros I. destruct (w_real fd mgr eps tol wt m ts FD TE XR REG US SE tr I) as (IB & TR & _ & BIG).
  destruct (bid_place _ IB) as (_ & _ & f & F1 & F2 & _). apply (rg_ans _ REG) in IB.
  destruct (req_place _ IB) as (_ & _ & g & G1 & G2 & G3 & _ & _ & G4).
  exists f, g. unfold bidder_of, requester_of, commod_of. rewrite TR. repeat split; auto.
Qed.

Lemma nodup_at {A} (l : list A) i j x : NoDup l -> nth_error l i = Some x -> nth_error l j = Some x -> i = j.
Proof.
  intros ND N1 N2. eapply NoDup_nth_error; eauto; [apply nth_error_Some; congruence|congruence].
Qed.
Lemma traded_none P : (forall tr, In tr ts -> P tr = false) -> traded P ts == 0.
Proof.
  intros H. unfold traded. 
  assert (F : filter P ts = []).
  { clear - H. induction ts as [|x l IH]; cbn; auto. rewrite (H x) by (now left). apply IH. intros; apply H; now right. }
  rewrite F. reflexivity.
Qed.
Lemma tr_bid tr : In tr ts -> exists p, In p (x_bports m) /\ bd_port (bid_at m (td_bid tr)) = p /\ nth_error bowners p = Some (bidder_of m tr).
Proof.
  intros I. destruct (w_real fd mgr eps tol wt m ts FD TE XR REG US SE tr I) as (IB & _).
  destruct (bid_place _ IB) as (IP & IN & _). exists (bd_port (bid_at m (td_bid tr))). split; auto. split; auto.
  destruct (bport_of _ IP) as (t & N & f & _ & _ & _ & _ & F). rewrite Forall_forall in F. destruct (F _ IN) as (_ & T).
  unfold bidder_of. congruence.
Qed.
Lemma tr_req tr : In tr ts -> exists p, In p (x_rports m) /\ rq_port (req_at m (td_req tr)) = p /\
  nth_error owners p = Some (requester_of m tr) /\ In (td_req tr) (rp_reqs (rp_at m p)) /\ In (td_req tr) (all_reqs m).
Proof.
  intros I. destruct (w_real fd mgr eps tol wt m ts FD TE XR REG US SE tr I) as (IB & TR & _).
  apply (rg_ans _ REG) in IB. rewrite <- TR in IB.
  destruct (req_place _ IB) as (IP & IN & _). exists (rq_port (req_at m (td_req tr))). split; auto. split; auto.
  destruct (port_of _ IP) as (t & N & f & _ & _ & _ & F & _). rewrite Forall_forall in F. destruct (F _ IN) as (_ & T).
  unfold requester_of. split; [congruence|auto].
Qed.

Lemma trade_supply t f : nth_error fs t = Some f -> 0 <= offered_amount f ->
  traded (fun tr => Nat.eqb (bidder_of m tr) t) ts <= offered_amount f + tol.
Proof.
  intros N NN. pose proof (tol0 fd tol FD) as T0.
  destruct (in_dec Nat.eq_dec t bowners) as [I|I].
  - apply In_nth_error in I. destruct I as (p & NP).
    assert (IP : In p (x_bports m)).
    { rewrite (of_x _ _ _ _ OF). apply in_seq. pose proof (Forall2_len _ _ _ (of_ports _ _ _ _ OF)).
      assert (p < length bowners)%nat by (apply nth_error_Some; congruence). lia. }
    destruct (bport_of p IP) as (t' & N' & f' & F1 & F2 & F3 & CO & FB).
    assert (t' = t) by congruence. subst t'. assert (f' = f) by congruence. subst f'.
    assert (EQ : traded (fun tr => Nat.eqb (bidder_of m tr) t) ts == used m (mkC (offered_amount f) CTrivial) (from_bport m p) ts).
    { unfold traded, used. rewrite (filter_ext_in _ (from_bport m p)).
      - generalize (filter (from_bport m p) ts). intros l. induction l as [|x l IH]; cbn; [reflexivity|].
        unfold qsum in *. cbn in *. rewrite IH. unfold use. cbn. ring.
      - intros tr I. destruct (tr_bid tr I) as (q & IQ & BP & NQ). unfold from_bport. rewrite BP.
        destruct (Nat.eqb_spec (bidder_of m tr) t) as [BT|D]; symmetry.
        + rewrite BT in NQ. apply Nat.eqb_eq. eapply nodup_at; eauto. exact (mp_bowners _ _ _ _ _ _ MP).
        + apply Nat.eqb_neq. intros ->. congruence. }
    rewrite EQ.
    assert (B := w_bport fd mgr eps tol wt m ts FD TE XR REG US SE p (mkC (offered_amount f) CTrivial) 1 IP).
    rewrite CO in B. cbn [cc_cap] in B. rewrite Qmult_1_r in B. apply B; [now left|lra|].
    intros b _. unfold use. cbn. lra.
  - rewrite traded_none; [lra|]. intros tr IT. destruct (tr_bid tr IT) as (q & _ & _ & NQ).
    apply Nat.eqb_neq. intros <-. apply I. eapply nth_error_In; eauto.
Qed.
Lemma trade_demand t f : nth_error fs t = Some f ->
  traded (fun tr => Nat.eqb (requester_of m tr) t) ts <= demand eps f + tol.
Proof.
  intros N. pose proof (tol0 fd tol FD) as T0. unfold demand.
  assert (PO : In t owners <-> Qltb eps (wanted_amount f) = true).
  { rewrite (mp_posting _ _ _ _ _ _ MP). unfold posting. rewrite N. split; [tauto|]. split; auto. apply nth_error_Some. congruence. }
  destruct (Qltb eps (wanted_amount f)) eqn:P.
  - pose proof (proj2 PO eq_refl) as I. apply In_nth_error in I. destruct I as (p & NP).
    assert (IP : In p (x_rports m)).
    { rewrite (af_x _ _ _ _ _ AF). apply in_seq. pose proof (Forall2_len _ _ _ (af_ports _ _ _ _ _ AF)).
      assert (p < length owners)%nat by (apply nth_error_Some; congruence). lia. }
    destruct (port_of p IP) as (t' & N' & f' & F1 & F2 & F3 & F4 & F5 & F6 & F7 & F8).
    assert (t' = t) by congruence. subst t'. assert (f' = f) by congruence. subst f'.
    assert (EQ : traded (fun tr => Nat.eqb (requester_of m tr) t) ts = traded (for_rport m p) ts).
    { unfold traded. rewrite (filter_ext_in _ (for_rport m p)); auto.
      intros tr I. destruct (tr_req tr I) as (q & IQ & BP & NQ & _). unfold for_rport. rewrite BP.
      destruct (Nat.eqb_spec (requester_of m tr) t) as [BT|D]; symmetry.
      + rewrite BT in NQ. apply Nat.eqb_eq. eapply nodup_at; eauto. exact (mp_owners _ _ _ _ _ _ MP).
      + apply Nat.eqb_neq. intros ->. congruence. }
    rewrite EQ, <- F7. apply (w_rport fd mgr eps tol wt m ts FD TE XR REG US SE p IP).
    apply Qlt_le_weak. now apply m_asking.
  - rewrite traded_none; [lra|]. intros tr IT. destruct (tr_req tr IT) as (q & _ & _ & NQ & _).
    apply Nat.eqb_neq. intros <-. apply nth_error_In in NQ. apply PO in NQ. discriminate.
Qed.
Lemma trade_commod t f c : nth_error fs t = Some f -> NoDup (wanted_commods f) -> 0 <= wanted_amount f ->
  traded (fun tr => Nat.eqb (requester_of m tr) t && String.eqb (commod_of m tr) c) ts <= wanted_amount f + tol.
Proof.
  intros N ND NN. pose proof (tol0 fd tol FD) as T0.
  set (P := fun tr => _).
  destruct (existsb P ts) eqn:EX.
  - apply existsb_exists in EX. destruct EX as (x & IX & PX). unfold P in PX. apply andb_true_iff in PX.
    destruct PX as (PX1 & PX2). apply Nat.eqb_eq in PX1. apply String.eqb_eq in PX2.
    destruct (tr_req x IX) as (p & IP & BP & NP & IR & IA). rewrite PX1 in NP.
    destruct (port_of p IP) as (t' & N' & f' & F1 & F2 & F3 & F4 & F5 & F6 & F7 & F8).
    assert (t' = t) by congruence. subst t'. assert (f' = f) by congruence. subst f'.
    assert (EQ : traded P ts = traded (for_request (td_req x)) ts).
    { unfold traded. rewrite (filter_ext_in _ (for_request (td_req x))); auto.
      intros tr I. destruct (tr_req tr I) as (q & IQ & BQ & NQ & IRQ & _). unfold P, for_request.
      destruct (Nat.eqb_spec (td_req tr) (td_req x)) as [EQ|D].
      - unfold requester_of, commod_of in *. rewrite EQ, PX1, PX2, Nat.eqb_refl, String.eqb_refl. reflexivity.
      - destruct (Nat.eqb_spec (requester_of m tr) t) as [RT|]; auto. destruct (String.eqb_spec (commod_of m tr) c) as [CT|]; auto.
        exfalso. apply D. rewrite RT in NQ. assert (QP : q = p) by exact (nodup_at owners q p t (mp_owners _ _ _ _ _ _ MP) NQ NP). rewrite QP in IRQ.
        rewrite <- F5 in ND. unfold commod_of in CT, PX2.
        eapply (map_inj_in (fun r => rq_commod (req_at m r))); eauto. congruence. }
    rewrite EQ. eapply Qle_trans; [apply (w_request fd mgr eps tol wt m ts FD TE XR REG US SE _ IA)|].
    destruct (req_place _ IA) as (_ & _ & g & G1 & _ & _ & -> & _).
    assert (g = f) by (unfold requester_of in PX1; congruence). subst g. lra.
  - rewrite traded_none; [lra|]. intros tr IT. destruct (P tr) eqn:PT; auto.
    assert (existsb P ts = true) by (apply existsb_exists; eauto). congruence.
Qed.

(** *** Nothing is left that could be traded *)
Lemma traded_le P P' : (forall tr, In tr ts -> P tr = true -> P' tr = true) -> traded P ts <= traded P' ts.
Proof.
  intros H. assert (NN : forall tr, In tr ts -> 0 <= td_amt tr).
  { intros tr I. destruct (trade_real tr I) as (_ & _ & _ & _ & _ & _ & _ & B & _). lra. }
  clear - H NN. unfold traded. induction ts as [|x l IH]; cbn; [lra|].
  assert (IH' : qsum (map td_amt (filter P l)) <= qsum (map td_amt (filter P' l))) by (apply IH; intros; [apply H|apply NN]; auto; now right).
  pose proof (NN x (or_introl eq_refl)). pose proof (H x (or_introl eq_refl)) as HX.
  destruct (P x); [rewrite HX by auto|destruct (P' x)]; cbn; lra.
Qed.
Lemma trade_left t f s g c : (x_bbr m = [] <-> all_bids m = []) ->
  nth_error fs t = Some f -> offered_commod f = Some c ->
  nth_error fs s = Some g -> In c (wanted_commods g) -> eps < wanted_amount g ->
  offered_amount f - traded (fun tr => Nat.eqb (bidder_of m tr) t) ts <= eps \/
  wanted_amount g - traded (fun tr => Nat.eqb (requester_of m tr) s && String.eqb (commod_of m tr) c) ts <= eps \/
  demand eps g - traded (fun tr => Nat.eqb (requester_of m tr) s) ts <= eps.
Proof.
  intros BBR NT OC NS WC WA.
  set (X := traded (fun tr => Nat.eqb (bidder_of m tr) t) ts).
  set (Y := traded (fun tr => Nat.eqb (requester_of m tr) s && _) ts).
  set (Z := traded (fun tr => Nat.eqb (requester_of m tr) s) ts).
  destruct (Qlt_le_dec eps (offered_amount f - X)) as [HX|]; [|auto].
  destruct (Qlt_le_dec eps (wanted_amount g - Y)) as [HY|]; [|auto].
  destruct (Qlt_le_dec eps (demand eps g - Z)) as [HZ|]; [|auto]. exfalso.
  assert (IO : In s owners).
  { apply (mp_posting _ _ _ _ _ _ MP). split; [apply nth_error_Some; congruence|]. unfold posting. rewrite NS.
    destruct (Qltb_spec eps (wanted_amount g)); auto. }
  apply In_nth_error in IO. destruct IO as (p & NP).
  assert (IP : In p (x_rports m)).
  { rewrite (af_x _ _ _ _ _ AF). apply in_seq. pose proof (Forall2_len _ _ _ (af_ports _ _ _ _ _ AF)).
    assert (p < length owners)%nat by (apply nth_error_Some; congruence). lia. }
  destruct (port_of p IP) as (s' & N' & g' & F1 & F2 & F3 & F4 & F5 & F6 & F7 & F8).
  assert (s' = s) by congruence. subst s'. assert (g' = g) by congruence. subst g'.
  rewrite <- F5 in WC. apply in_map_iff in WC. destruct WC as (r & RC & IR).
  assert (IA : In r (all_reqs m)) by (apply in_flat_map; eauto).
  assert (RS : rq_trader (req_at m r) = s) by (rewrite Forall_forall in F4; now apply F4).
  destruct (req_place r IA) as (_ & _ & g2 & G1 & _ & _ & G4 & (_ & G6) & _).
  assert (g2 = g) by congruence. subst g2.
  assert (RP : rq_port (req_at m r) = p).
  { assert (LP : (p < length (m_rports m))%nat) by (rewrite (af_x _ _ _ _ _ AF) in IP; apply in_seq in IP; lia).
    destruct (xi_r _ INV p (rp_at m p)) as (_ & H & _); [now apply nth_error_at|]. now destruct (H r IR) as (_ & ? & _). }
  pose proof (mp_shown _ _ _ _ _ _ MP r IA) as SH. rewrite RC in SH.
  destruct (mp_covered _ _ _ _ _ _ MP t) with (f := f) (c := c) (r := r) as (bp & BP & b & q0 & A1 & A2 & A3 & A4 & A5 & A6); auto.
  { apply nth_error_Some. congruence. }
  assert (LB : (bp < length (m_bports m))%nat) by (apply nth_error_Some; congruence).
  assert (AB : bp_at m bp = BP) by (unfold bp_at; now apply nth_error_nth).
  assert (QB : bid_at m b = q0) by (unfold bid_at; now apply nth_error_nth).
  assert (IB : In b (all_bids m)).
  { apply in_flat_map. exists bp. rewrite AB. split; auto. rewrite (of_x _ _ _ _ OF). apply in_seq. lia. }
  destruct (bid_place b IB) as (IBP & IBB & f2 & B1 & B2 & (_ & B4) & _). rewrite QB, A4 in B1.
  assert (f2 = f) by congruence. subst f2.
  destruct (bport_of _ IBP) as (t2 & T1 & f3 & T2 & T3 & T4 & T5 & T6).
  assert (t2 = t) by (rewrite Forall_forall in T6; destruct (T6 _ IBB) as (_ & <-); congruence). subst t2.
  assert (f3 = f) by congruence. subst f3.
  assert (BR : bd_req (bid_at m b) = r) by congruence.
  assert (REALB : forall tr, In tr ts -> In (td_bid tr) (all_bids m) /\ td_req tr = bd_req (bid_at m (td_bid tr))).
  { intros tr I. destruct (w_real fd mgr eps tol wt m ts FD TE XR REG US SE tr I) as (H1 & H2 & _). auto. }
  assert (L1 : traded (for_rport m p) ts <= Z).
  { apply traded_le. intros tr I P. unfold for_rport in P. apply Nat.eqb_eq in P. destruct (tr_req tr I) as (p' & _ & <- & NQ & _).
    apply Nat.eqb_eq. congruence. }
  assert (L2 : traded (for_request r) ts <= Y).
  { apply traded_le. intros tr I P. unfold for_request in P. apply Nat.eqb_eq in P. unfold requester_of, commod_of. rewrite P, RS, RC, Nat.eqb_refl, String.eqb_refl. reflexivity. }
  assert (L3 : traded (from_bid b) ts <= X).
  { apply traded_le. intros tr I P. unfold from_bid in P. apply Nat.eqb_eq in P. unfold bidder_of. apply Nat.eqb_eq. congruence. }
  assert (L4 : traded (from_bid b) ts <= Y).
  { eapply Qle_trans; [|exact L2]. apply traded_le. intros tr I P. unfold from_bid in P. apply Nat.eqb_eq in P. unfold for_request. apply Nat.eqb_eq.
    destruct (REALB tr I) as (_ & ->). congruence. }
  assert (L5 : traded (from_bport m (bd_port (bid_at m b))) ts <= X).
  { apply traded_le. intros tr I P. unfold from_bport in P. apply Nat.eqb_eq in P. destruct (tr_bid tr I) as (p' & _ & EP & NQ). apply Nat.eqb_eq. congruence. }
  assert (DM : demand eps g = inject_Z (Z.of_nat (length (wanted_commods g))) * wanted_amount g).
  { unfold demand. destruct (Qltb_spec eps (wanted_amount g)); [auto|contradiction]. }
  assert (US1 : forall cc P, cc_conv cc = CTrivial -> used m cc P ts == traded P ts).
  { intros cc P CC. unfold used, traded. apply qsum_map_ext. intros tr _. unfold use. rewrite CC. cbn. ring. }
  set (q := qmin (offered_amount f - X) (qmin (wanted_amount g - Y) (demand eps g - Z))).
  assert (Q1 : eps < q) by (unfold q, qmin; repeat match goal with |- context [Qltb ?a ?b] => destruct (Qltb a b) end; assumption).
  assert (Q2 : q <= offered_amount f - X /\ q <= wanted_amount g - Y /\ q <= demand eps g - Z).
  { assert (ML : forall a b, qmin a b <= a /\ qmin a b <= b).
    { clear. intros a b. unfold qmin. destruct (Qltb_spec b a); split; lra. }
    subst q. clear - ML. generalize (ML (offered_amount f - X) (qmin (wanted_amount g - Y) (demand eps g - Z))), (ML (wanted_amount g - Y) (demand eps g - Z)).
    intros (H1 & H2) (H3 & H4). repeat split; eauto using Qle_trans. }
  destruct Q2 as (Q2 & Q3 & Q4).
  apply (w_left fd mgr eps tol wt m ts FD TE XR REG US SE) with (b := b) (q := q); auto.
  - intros B. apply BBR in B. rewrite B in IB. destruct IB.
  - rewrite (m_pref b IB). reflexivity.
  - rewrite BR. exact G6.
  - rewrite BR, RP, F7, <- DM. clear - L1 Q4. lra.
  - rewrite BR, G4. clear - L2 Q3. lra.
  - rewrite QB. eapply Qle_trans; [|exact A6]. rewrite G4. unfold qmin. clear - L3 L4 Q2 Q3.
    destruct (Qltb (offered_amount f) (wanted_amount g)); lra.
  - intros cc IC. rewrite T5 in IC. destruct IC as [<-|[]]. rewrite US1 by auto. unfold use. cbn. clear - L5 Q2. lra.
  - rewrite BR, RP. exists (mass_cons (rp_at m p)). split.
    + unfold req_cons. apply in_or_app. right. now left.
    + assert (UM : use m (mass_cons (rp_at m p)) b == 1).
      { unfold use, mass_cons. cbn. rewrite BR, (F8 r IR). ring. }
      rewrite UM.
      assert (UT : used m (mass_cons (rp_at m p)) (for_rport m p) ts == traded (for_rport m p) ts).
      { unfold used, traded. apply qsum_map_ext. intros tr I. apply filter_In in I. destruct I as (I & P). unfold for_rport in P. apply Nat.eqb_eq in P.
        destruct (tr_req tr I) as (p' & _ & EP & _ & IQ & _). rewrite <- EP, P in IQ. unfold use, mass_cons. cbn.
        destruct (REALB tr I) as (_ & <-). rewrite (F8 _ IQ). ring. }
      rewrite UT. cbn. rewrite F7, <- DM. clear - L1 Q4. lra.
Qed.
End Market.
