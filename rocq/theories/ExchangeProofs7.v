(** Mutual requests; whole exchanges. *)
From Coq Require Import String QArith List Bool Arith ZArith Lia Lqa Permutation.
From Verif Require Import Base GreedyModel GreedySpec ExchangeModel ExchangeSpec
  ExchangeProofs1 ExchangeProofs2 ExchangeProofs3 ExchangeProofs4 ExchangeProofs5.
Import ListNotations.
Open Scope Q_scope.

Lemma stage_asking fd mgr m m1 g t : xinv m -> registered m -> translate fd mgr m = Ok (m1, (g, t)) -> asking m.
Proof.
  intros I R T p IP. destruct (Qlt_le_dec 0 (rp_qty (rp_at m p))); auto.
  assert (NA : ~ asking m) by (intros H; specialize (H p IP); lra).
  destruct (stage1 fd mgr m I R) as [_ S2]. apply S2 in NA. unfold translate in T. rewrite NA in T. discriminate.
Qed.

(** A solved exchange with at least one bid comes from a translated and solved graph. *)
Lemma solve_exchange_inv fd mgr eps w m ts : solve_exchange fd mgr eps w m = Ok ts ->
  (x_bbr m = [] /\ ts = []) \/
  exists m1 g t g', translate fd mgr m = Ok (m1, (g, t)) /\ solve fd eps w g = Ok g' /\
    back_all t (gr_matches g') = Ok ts.
Proof.
  unfold solve_exchange. destruct (x_bbr m); [intros [= <-]; auto|].
  destruct (translate fd mgr m) as [[m1 [g t]]|e|]; try discriminate.
  destruct (solve fd eps w g) as [g'|e|] eqn:SV; try discriminate. intros B. right.
  exists m1, g, t, g'. auto.
Qed.

Section Whole.
Variable fd : Q -> Q -> Q.
Variable mgr : nat -> Z.
Variable eps tol : Q.
Variable w : option weights.
Variable m : market.
Variable ts : list trade.
Hypothesis FD : fd_ok fd tol.
Hypothesis TE : tol <= eps.
Hypothesis XR : xreach m.
Hypothesis REG : registered m.
Hypothesis US : usable m.
Hypothesis SE : solve_exchange fd mgr eps w m = Ok ts.

Lemma tol0 : 0 <= tol.
Proof. destruct FD; auto. Qed.

Lemma whole (P : Prop) : (ts = [] -> P) ->
  (forall g t g', represents fd mgr m g t -> asking m -> solve fd eps w g = Ok g' ->
     back_all t (gr_matches g') = Ok ts -> P) -> P.
Proof.
  intros H0 H1. destruct (solve_exchange_inv _ _ _ _ _ _ SE) as [[_ E]|[m1 [g [t [g' [T [SV BA]]]]]]]; auto.
  assert (INV := xreach_inv m XR). apply (H1 g t g'); auto.
  - eapply translate_represents; eauto.
  - eapply stage_asking; eauto.
Qed.

Lemma w_real tr : In tr ts -> In (td_bid tr) (all_bids m) /\ td_req tr = bd_req (bid_at m (td_bid tr)) /\
  0 < pref_for m (td_bid tr) /\ eps < td_amt tr.
Proof.
  intros I. apply whole.
  - intros ->. destruct I.
  - intros g t g' R A SV B. exact (trades_real fd mgr m g t (xreach_inv m XR) REG R US A eps tol w FD TE g' SV ts B tr I).
Qed.
Lemma w_request r : In r (all_reqs m) -> traded (for_request r) ts <= rs_qty (rq_target (req_at m r)) + tol.
Proof.
  intros I. apply whole.
  - intros ->. assert (T := tol0). assert (X := us_target m US r I). change (traded (for_request r) []) with 0. lra.
  - intros g t g' R A SV B. exact (request_bound fd mgr m g t (xreach_inv m XR) REG R US A eps tol w FD TE g' SV ts B r I).
Qed.
Lemma w_bid b : In b (all_bids m) -> traded (from_bid b) ts <= rs_qty (bd_offer (bid_at m b)) + tol.
Proof.
  intros I. apply whole.
  - intros ->. assert (T := tol0). change (traded (from_bid b) []) with 0.
    assert (INV := xreach_inv m XR). apply in_flat_map in I as [p [Ip Ib]].
    assert (LR : (p < length (m_bports m))%nat).
    { assert (FF := xi_xb m INV). rewrite Forall_forall in FF. auto. }
    destruct (bp_at_ok m p INV LR) as [_ [R1 _]]. destruct (R1 b Ib) as [_ [_ [_ R3]]]. lra.
  - intros g t g' R A SV B. exact (bid_bound fd mgr m g t (xreach_inv m XR) REG R US A eps tol w FD TE g' SV ts B b I).
Qed.
Lemma w_rport p : In p (x_rports m) -> 0 <= rp_qty (rp_at m p) ->
  traded (for_rport m p) ts <= rp_qty (rp_at m p) + tol.
Proof.
  intros I QP. apply whole.
  - intros ->. assert (T := tol0). change (traded (for_rport m p) []) with 0. lra.
  - intros g t g' R A SV B. exact (rport_bound fd mgr m g t (xreach_inv m XR) REG R US A eps tol w FD TE g' SV ts B p I).
Qed.
Lemma w_bport p c U : In p (x_bports m) -> In c (bp_cons (bp_at m p)) -> 0 <= U ->
  (forall b, In b (bp_bids (bp_at m p)) -> use m c b <= U) ->
  used m c (from_bport m p) ts <= cc_cap c + tol * U.
Proof.
  intros I IC UP UB. apply whole.
  - intros ->. assert (T := tol0). change (used m c (from_bport m p) []) with 0.
    assert (INV := xreach_inv m XR).
    assert (LR : (p < length (m_bports m))%nat).
    { assert (FF := xi_xb m INV). rewrite Forall_forall in FF. auto. }
    destruct (bp_at_ok m p INV LR) as [_ [_ R3]]. specialize (R3 c IC). nra.
  - intros g t g' R A SV B. exact (bport_bound fd mgr m g t (xreach_inv m XR) REG R US A eps tol w FD TE g' SV ts B p c U I IC UP UB).
Qed.
Lemma w_mass p U : In p (x_rports m) -> 0 <= rp_qty (rp_at m p) -> rp_cons (rp_at m p) = [] -> 0 <= U ->
  (forall r x, In r (rp_reqs (rp_at m p)) -> nfind r (rp_coeffs (rp_at m p)) = Some x -> x <= U) ->
  used m (mass_cons (rp_at m p)) (for_rport m p) ts <= rp_qty (rp_at m p) + tol * U.
Proof.
  intros I QP NC UP UB. apply whole.
  - intros ->. assert (T := tol0). change (used m (mass_cons (rp_at m p)) (for_rport m p) []) with 0. nra.
  - intros g t g' R A SV B. exact (mass_bound fd mgr m g t (xreach_inv m XR) REG R US A eps tol w FD TE g' SV ts B p U I NC UP UB).
Qed.
End Whole.

(** ** AddMutualReqs *)
Lemma avg_mean m rs : avg_qty m rs = mean m rs.
Proof. reflexivity. Qed.
Lemma mutual_effect m p rs : (p < length (m_rports m))%nat -> rs <> [] -> ~ mean m rs == 0 ->
  let m' := snd (add_mutual m p rs) in
  fst (add_mutual m p rs) = Ok tt /\
  rp_qty (rp_at m' p) == rp_qty (rp_at m p) - qsum (map (fun r => rs_qty (rq_target (req_at m r))) rs) + mean m rs /\
  (forall r, In r rs -> nfind r (rp_coeffs (rp_at m' p)) = Some (rs_qty (rq_target (req_at m r)) / mean m rs)) /\
  (forall r, ~ In r rs -> nfind r (rp_coeffs (rp_at m' p)) = nfind r (rp_coeffs (rp_at m p))) /\
  rp_reqs (rp_at m' p) = rp_reqs (rp_at m p) /\ rp_cons (rp_at m' p) = rp_cons (rp_at m p).
Proof.
  intros L NE NZ. unfold add_mutual. rewrite avg_mean.
  destruct rs as [|r0 rs0]; [congruence|]. set (rs := r0 :: rs0) in *. clearbody rs. clear r0 rs0.
  destruct (Qeqb_spec (mean m rs) 0) as [Z|_]; [contradiction|].
  set (avg := mean m rs). cbv zeta. cbn [fst snd].
  assert (AT : forall rp, rp_at (set_rports m (upd (m_rports m) p rp)) p = rp).
  { intros rp. unfold rp_at. cbn [m_rports set_rports]. apply nth_error_nth. now apply nth_upd_same. }
  rewrite AT.
  cbn [rp_qty rp_coeffs rp_reqs rp_cons].
  assert (G : forall rs rp, let rp1 := fold_left (fun acc r =>
          let q := rs_qty (rq_target (req_at m r)) in
          mkRP (rp_trader acc) (rp_reqs acc) (nupd r (fun _ => q / avg) (rp_coeffs acc))
               (rp_cons acc) (rp_qty acc - q)) rs rp in
     rp_qty rp1 == rp_qty rp - qsum (map (fun r => rs_qty (rq_target (req_at m r))) rs) /\
     (forall r, In r rs -> nfind r (rp_coeffs rp1) = Some (rs_qty (rq_target (req_at m r)) / avg)) /\
     (forall r, ~ In r rs -> nfind r (rp_coeffs rp1) = nfind r (rp_coeffs rp)) /\
     rp_reqs rp1 = rp_reqs rp /\ rp_cons rp1 = rp_cons rp).
  { clear. intros rs1. induction rs1 as [|r rs1 IH]; intros rp.
    - cbv zeta. cbn [fold_left map]. change (qsum []) with 0.
      split; [ring|]. split; [intros r []|]. auto.
    - cbn [fold_left map]. cbv zeta. cbn [qsum].
      match goal with |- context [fold_left _ rs1 ?x] => destruct (IH x) as [A [B [C [D E]]]] end.
      cbn [rp_qty rp_coeffs rp_reqs rp_cons] in *. split; [rewrite A; ring|]. split; [|split; [|auto]].
      + intros r' [<-|I]; [|auto]. destruct (in_dec Nat.eq_dec r rs1) as [I|N]; [auto|].
        rewrite (C r N), nfind_nupd_same. reflexivity.
      + intros r' N. rewrite C, nfind_nupd_other; auto; intros X; apply N; simpl; auto. }
  destruct (G rs (rp_at m p)) as [A [B [C [D E]]]].
  split; [reflexivity|]. split; [rewrite A; reflexivity|]. auto.
Qed.

Lemma qsum_const (q : Q) (l : list nat) (f : nat -> Q) : (forall r, In r l -> f r == q) ->
  qsum (map f l) == inject_Z (Z.of_nat (length l)) * q.
Proof.
  induction l as [|x l IH]; intros H.
  - cbn [map qsum length]. change (inject_Z (Z.of_nat 0)) with 0. lra.
  - cbn [map qsum length]. rewrite (H x) by (simpl; auto). rewrite IH by (intros; apply H; simpl; auto).
    rewrite Nat2Z.inj_succ. unfold Z.succ. rewrite inject_Z_plus. change (inject_Z 1) with 1. lra.
Qed.
Lemma documented_one m rs q r : (forall r, In r rs -> rs_qty (rq_target (req_at m r)) == q) -> 0 < q -> In r rs ->
  documented_weight m rs r == 1.
Proof.
  intros H QP I. unfold documented_weight, mean. rewrite (qsum_const q rs _ H), (H r I).
  assert (L : (0 < length rs)%nat) by (destruct rs; [destruct I|simpl; lia]).
  assert (0 < inject_Z (Z.of_nat (length rs))).
  { change 0 with (inject_Z 0). rewrite <- Zlt_Qlt. lia. }
  field. split; lra.
Qed.
Lemma documented_equal m rs q P ts : (forall r, In r rs -> rs_qty (rq_target (req_at m r)) == q) -> 0 < q ->
  (forall t, In t ts -> P t = true -> In (td_req t) rs) ->
  documented_total m rs P ts == traded P ts.
Proof.
  intros H QP I. unfold documented_total, traded. apply qsum_map_ext.
  intros t It. apply filter_In in It as [It Pt]. rewrite (documented_one m rs q _ H QP (I t It Pt)). lra.
Qed.

Lemma w_equal fd mgr eps tol w m ts : fd_ok fd tol -> tol <= eps -> xreach m -> registered m -> usable m ->
  solve_exchange fd mgr eps w m = Ok ts ->
  forall p q, In p (x_rports m) -> 0 <= rp_qty (rp_at m p) -> 0 < q ->
  (forall r, In r (rp_reqs (rp_at m p)) -> rs_qty (rq_target (req_at m r)) == q) ->
  documented_total m (rp_reqs (rp_at m p)) (for_rport m p) ts <= rp_qty (rp_at m p) + tol.
Proof.
  intros FD TE XR REG US SE p q IP QP Q0 H.
  rewrite (documented_equal m _ q (for_rport m p) ts H Q0).
  - eapply w_rport; eauto.
  - intros t It Pt. destruct (w_real fd mgr eps tol w m ts FD TE XR REG US SE t It) as [IB [ER _]].
    unfold for_rport in Pt. apply Nat.eqb_eq in Pt.
    assert (IR := rg_ans m REG _ IB). rewrite <- ER in IR.
    assert (IR' := IR). apply in_flat_map in IR' as [p' [Ip' Ir]].
    assert (INV := xreach_inv m XR).
    assert (LR : (p' < length (m_rports m))%nat).
    { assert (FF := xi_xr m INV). rewrite Forall_forall in FF. auto. }
    destruct (rp_at_ok m p' INV LR) as [_ [R1 _]]. destruct (R1 _ Ir) as [_ [R2 _]].
    assert (EQ : p' = p) by congruence. now rewrite <- EQ.
Qed.

Lemma back_repr fd mgr m g t a q : represents fd mgr m g t -> In a (gr_arcs g) -> exists b,
  In b (all_bids m) /\ nfind (bd_req (bid_at m b)) (r2n t) = Some (a_u a) /\ nfind b (b2n t) = Some (a_v a) /\
  back_match t (a, q) = Ok (mkTrade (bd_req (bid_at m b)) b q).
Proof.
  intros R I. destruct (back_match_ok fd mgr m g t R a q I) as [b [[A [B [C [D _]]]] E]]. exists b. auto.
Qed.
