(** Nothing is left untraded that could have been. *)
From Coq Require Import String QArith List Bool Arith ZArith Lia Lqa Permutation.
From Verif Require Import Base GreedyModel GreedySpec GreedyProofs5 ExchangeModel ExchangeSpec
  ExchangeProofs1 ExchangeProofs2 ExchangeProofs3 ExchangeProofs4 ExchangeProofs5 ExchangeProofs7.
Import ListNotations.
Open Scope Q_scope.

Lemma w_left fd mgr eps tol w m ts : fd_ok fd tol -> tol <= eps -> xreach m -> registered m -> usable m ->
  solve_exchange fd mgr eps w m = Ok ts -> x_bbr m <> [] ->
  forall b, In b (all_bids m) -> 0 < pref_for m b -> bd_excl (bid_at m b) = false ->
  rq_excl (req_at m (bd_req (bid_at m b))) = false ->
  let r := bd_req (bid_at m b) in let p := rq_port (req_at m r) in let bp := bd_port (bid_at m b) in
  forall q, eps < q ->
    traded (for_rport m p) ts + q <= rp_qty (rp_at m p) ->
    traded (for_request r) ts + q <= rs_qty (rq_target (req_at m r)) ->
    traded (from_bid b) ts + q <= rs_qty (bd_offer (bid_at m b)) ->
    (forall c, In c (bp_cons (bp_at m bp)) -> used m c (from_bport m bp) ts + q * use m c b <= cc_cap c) ->
    ~ exists c, In c (req_cons m p) /\ used m c (for_rport m p) ts + q * use m c b <= cc_cap c.
Proof.
  intros FD TE XR REG US SE NE b IB LK BX RX r p bp q BQ H1 H2 H3 H4 (c & IC & H5).
  assert (T0 := tol0 fd tol FD).
  destruct (solve_exchange_inv _ _ _ _ _ _ SE) as [[X _]|(m1 & g & t & g' & T & SV & BA)]; [contradiction|].
  assert (INV := xreach_inv m XR).
  assert (RP : represents fd mgr m g t) by (eapply translate_represents; eauto).
  assert (ASK : asking m) by (eapply stage_asking; eauto).
  assert (WB := translated_wb fd mgr m g t INV REG RP US ASK).
  assert (TT := the_trades fd mgr m g t INV REG RP US ASK eps tol w FD TE g' SV ts BA).
  assert (LB : In b (filter (liked m) (all_bids m))).
  { apply filter_In. split; auto. unfold liked. destruct (Qltb_spec 0 (pref_for m b)); auto. }
  destruct (Forall2_in_l _ _ _ b (rp_arcs _ _ _ _ _ RP) LB) as (a & IA & U & V & AN).
  assert (AO : arc_of fd m g t b a) by (apply filter_In in LB; destruct LB; repeat split; auto).
  destruct (arc_groups fd mgr m g t INV REG RP b a AO) as (i & j & E1 & E2 & G1 & G2).
  destruct (req_home fd mgr m g t INV RP _ (rg_ans m REG b IB)) as (i' & n & F1 & _ & F2 & (_ & NQ & NX & _)).
  destruct (bid_home fd mgr m g t INV RP b IB) as (j' & n' & K1 & _ & K2 & _ & (_ & MQ & MX & _)).
  rewrite F2 in U. injection U as U. rewrite K2 in V. injection V as V.
  destruct (rp_rgroup _ _ _ _ _ RP i _ E1) as (GQ & _ & GC).
  destruct (rp_bgroup _ _ _ _ _ RP j _ E2) as (_ & BC).
  destruct (arc_units fd mgr m g t INV RP US b a AO IA) as ((_ & _ & UU) & (_ & _ & VU)).
  assert (EXH := exhausted_g fd eps tol w g FD TE WB g' SV a i IA G1).
  assert (AX : a_excl a = false).
  { rewrite AN. unfold arc_new. cbn [a_excl]. unfold unode, vnode. rewrite <- U, <- V, NX, MX, BX, RX. reflexivity. }
  rewrite AX in EXH.
  assert (OG := traded_rport fd mgr m g t INV REG RP _ _ i _ TT E1).
  apply (EXH) with (q := q); auto.
  - rewrite OG, GQ. fold r p. lra.
  - rewrite OG, GQ. fold r p. lra.
  - split; [|split; [|split]].
    + rewrite (traded_request fd mgr m g t RP _ _ r (a_u a) TT) by (rewrite <- U; exact F2).
      unfold unode. rewrite <- U, NQ. exact H2.
    + rewrite (traded_bid fd mgr m g t RP _ _ b (a_v a) TT) by (rewrite <- V; exact K2).
      unfold vnode. rewrite <- V, MQ. exact H3.
    + intros G k cc EG NC. rewrite G2 in EG. injection EG as <-. rewrite BC, nth_error_map in NC.
      destruct (nth_error (bp_cons (bp_at m (bd_port (bid_at m b)))) k) as [c0|] eqn:N0; [|discriminate]. cbn in NC. injection NC as <-.
      cbn [within]. rewrite (used_bport fd mgr m g t INV REG RP US _ _ j _ k c0 TT E2 N0), (VU k c0 N0).
      apply H4. eapply nth_error_In; eauto.
    + intros G EG _. rewrite G1 in EG. injection EG as <-. apply In_nth_error in IC. destruct IC as (k & NK).
      exists k, (Some (cc_cap c)). split; [rewrite GC, nth_error_map; fold r p; now rewrite NK|].
      cbn [within]. rewrite (used_rport fd mgr m g t INV REG RP US _ _ i _ k c TT E1 NK), (UU k c NK). exact H5.
Qed.
