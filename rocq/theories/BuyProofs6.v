(** C38: the requests respect every limit, and what is asked for fits. *)
From Verif Require Import Base CompModel CompSpec PackageModel ResourceModel ResourceSpec BufModel BufSpec
  BufProofs1 BufProofs2 BufProofs3 BufProofs4 BufProofs5 BufProofs6 BufProofs7
  GreedyModel ExchangeModel TrackerModel TrackerSpec TrackerProofs BuyModel BuySpec BuyProofs1 BuyProofs2 BuyProofs3 BuyProofs4 BuyProofs5.
Local Open Scope Q_scope.
Local Opaque DBL_MAX.

Lemma demand_const m ports q : Forall (fun x => rp_qty (rp_at m x) == q) ports ->
  demand m ports == inject_Z (Z.of_nat (length ports)) * q.
Proof.
  unfold demand. induction 1 as [|x l H _ IH]; cbn [map qsum length]; [ring|].
  rewrite H, IH, Nat2Z.inj_succ, <- Z.add_1_r, inject_Z_plus. change (inject_Z 1) with 1. ring.
Qed.

Lemma ole_trans a b c : a <= b -> ole b c -> ole a c.
Proof. destruct c; cbn; [lra|trivial]. Qed.
Lemma amount_le p b ts f : 0 < amount p b ts f -> 0 <= f <= 1 ->
  let x := amount p b ts f in
  x <= y_thr p /\ x <= y_fill p - quantity b /\ ole x (space b) /\ x <= ts /\
  (y_uses_cum p = true -> x <= y_cum p - y_cycle p).
Proof.
  intros P F x. unfold x in *. unfold amount in *.
  set (m := qmin (omin (qmin (y_thr p) (y_fill p - quantity b)) (space b)) ts) in *.
  set (most := if y_uses_cum p then y_cum p - y_cycle p else DBL_MAX) in *.
  pose proof (qmin_l (m * f) most) as A1. pose proof (qmin_r (m * f) most) as A2.
  assert (0 < m * f) as A3 by lra.
  assert (0 < m) as A4. { destruct (Qlt_le_dec 0 m) as [K|K]; [assumption|]. nra. }
  assert (m * f <= m) as A5 by nra.
  pose proof (qmin_l (omin (qmin (y_thr p) (y_fill p - quantity b)) (space b)) ts) as B1.
  pose proof (qmin_r (omin (qmin (y_thr p) (y_fill p - quantity b)) (space b)) ts) as B2. fold m in B1, B2.
  pose proof (omin_l (qmin (y_thr p) (y_fill p - quantity b)) (space b)) as B3.
  pose proof (qmin_l (y_thr p) (y_fill p - quantity b)) as B4. pose proof (qmin_r (y_thr p) (y_fill p - quantity b)) as B5.
  split; [lra|]. split; [lra|]. split.
  - destruct (space b) as [sp|]; cbn [ole omin] in *; [|trivial].
    pose proof (qmin_r (qmin (y_thr p) (y_fill p - quantity b)) sp). lra.
  - split; [lra|]. intros U. unfold most in *. rewrite U in *. lra.
Qed.

Lemma to_int_le x n : to_int x = Some n -> 0 <= x -> inject_Z n <= x.
Proof.
  unfold to_int. destruct (_ && _)%bool; [|discriminate]. intros H P. injection H as <-. unfold qtrunc.
  destruct (Qltb_spec x 0); [lra|]. apply Qfloor_le.
Qed.

Lemma requests_within E eps mgr i k a s p got ports s' p' b t :
  used E eps mgr i k a s p got -> sizes_ok a -> 0 < eps ->
  nth_error (s_bufs s) i = Some b -> nth_error (s_trks s) k = Some t ->
  y_requests eps (s, p) = (Ok ports, (s', p')) -> ports <> [] ->
  exists ts tq, trk_space (s_bufs s) t = Ok ts /\ trk_quantity (s_bufs s) t = Ok tq /\
    ole tq (l_reorder (limits_of a)) /\ y_dormant (w_time (s_world s)) p = false /\
    0 < demand (s_mkt s') ports /\ possible (limits_of a) b ts (demand (s_mkt s') ports) /\
    ole (got + demand (s_mkt s') ports) (l_cap (limits_of a)) /\
    NoDup ports /\
    match l_quantum (limits_of a) with
    | Some q => 0 < q -> Forall (fun x => asks (s_mkt s') x (y_id p) (y_commods p) q true) ports
    | None => exists x, ports = [x] /\ asks (s_mkt s') x (y_id p) (y_commods p) (demand (s_mkt s') ports) false
    end.
Proof.
  intros U SZ EP B T H NE. apply used_cfg in U as [S [R [C Z]]]. specialize (Z SZ).
  apply requests_spec in H as [_ [[e [X _]]|[ports' [X [_ [k' [t' [tq [K [T' [TQ [am [AM PO]]]]]]]]]]]]]; [discriminate| |assumption|discriminate].
  injection X as <-. destruct S as [S1 [S2 [S3 [S4 [S5 [S6 [S7 S8]]]]]]] eqn:SE. clear SE. rewrite S3 in K. injection K as <-. rewrite T in T'. injection T' as <-.
  destruct PO as [[_ ->]|[L [n [NR [N0 [LN [ND PG]]]]]]]; [congruence|].
  destruct AM as [[A1 [A2 [i' [b' [ts [d [I' [B' [TS [SD AQ]]]]]]]]]]|[_ ->]]; [|lra].
  rewrite S2 in I'. injection I' as <-. rewrite B in B'. injection B' as <-.
  pose proof (amount_le p b ts (d_vals d (d_pos d))) as LE. rewrite <- AQ in LE. specialize (LE ltac:(lra) (Z d SD _)). cbv zeta in LE.
  destruct LE as [L1 [L2 [L3 [L4 L5]]]].
  set (q := if y_excl p then y_quant p else am) in *.
  assert (demand (s_mkt s') ports == inject_Z n * q) as DM.
  { rewrite demand_const with (q := q).
    - rewrite LN, Z2Nat.id by assumption. reflexivity.
    - eapply Forall_impl; [|exact PG]. intros x [_ [_ [G _]]]. exact G. }
  assert (0 < n)%Z as N1. { destruct (Z.eq_dec n 0) as [->|]; [|lia]. destruct ports; [congruence|discriminate]. }
  assert (0 < inject_Z n * q /\ inject_Z n * q <= am) as [D1 D2].
  { unfold q, y_excl, y_nreq, y_excl in *. destruct (Qltb_spec 0 (y_quant p)) as [Y|Y].
    - unfold qdiv in NR. destruct (Qeqb (y_quant p) 0); [discriminate|]. cbn [obind] in NR.
      assert (inject_Z n <= am / y_quant p) as NL.
      { apply to_int_le; [assumption|]. apply Qle_shift_div_l; lra. }
      assert (inject_Z n * y_quant p <= am).
      { setoid_replace am with (am / y_quant p * y_quant p) by (field; lra). apply Qmult_le_compat_r; lra. }
      assert (0 < inject_Z n) by (change 0 with (inject_Z 0); now rewrite <- Zlt_Qlt). split; [nra|assumption].
    - injection NR as <-. change (inject_Z 1) with 1. lra. }
  exists ts, tq. split; [assumption|]. split; [assumption|]. split; [now apply ole_trans with (y_reqat p)|]. split; [assumption|].
  split; [rewrite DM; assumption|].
  assert (demand (s_mkt s') ports <= am) as DA by (rewrite DM; assumption).
  split; [|split; [|split; [assumption|]]].
  - unfold possible. split; [apply ole_trans with (y_thr p); [lra|assumption]|]. split; [now apply ole_trans with am|].
    split; [lra|]. destruct (l_target (limits_of a)) as [g|]; [|trivial]. cbn [ole] in S5. lra.
  - unfold cap_ok in S8. destruct (l_cap (limits_of a)) as [c|] eqn:LC; cbn [ole]; [|trivial].
    assert (y_uses_cum p = true) as U by (unfold y_uses_cum; destruct (Qltb_spec 0 (y_cum p)); [reflexivity|lra]).
    specialize (L5 U). rewrite <- C by discriminate. lra.
  - destruct (l_quantum (limits_of a)) as [q0|]; cbn [odef] in S7.
    + intros Q0. assert (y_excl p = true) as X by (unfold y_excl; rewrite S7; destruct (Qltb_spec 0 q0); [reflexivity|lra]).
      rewrite X in PG. unfold q in PG. rewrite X, S7 in PG. eapply Forall_impl; [|exact PG]. intros x [_ [_ G]]. exact G.
    + assert (y_excl p = false) as X by (unfold y_excl; now rewrite S7).
      unfold y_nreq in NR. rewrite X in NR. injection NR as <-. change (Z.to_nat 1) with 1%nat in LN.
      destruct ports as [|x [|y l]]; try discriminate. exists x. split; [reflexivity|].
      apply Forall_inv in PG as [_ [_ [G1 [G2 [G3 G4]]]]]. unfold q in G1, G4, DM. rewrite X in *.
      assert (demand (s_mkt s') [x] == am) as E1 by (rewrite DM; change (inject_Z 1) with 1; ring).
      unfold asks. rewrite E1. split; [assumption|]. split; [assumption|]. split; [assumption|].
      eapply Forall_impl; [|exact G4]. intros r [G5 G6]. cbv beta. rewrite E1. auto.
Qed.

Lemma requests_fit E eps mgr i k a s p got ports s' p' b t bs sc resps r sd p2 :
  used E eps mgr i k a s p got -> sizes_ok a -> 0 < eps -> 0 <= e_eps E ->
  nth_error (s_bufs s) i = Some b -> nth_error (s_trks s) k = Some t ->
  tracks (s_bufs s) (t_bufs t) bs -> NoDup (t_bufs t) -> In i (t_bufs t) ->
  y_requests eps (s, p) = (Ok ports, (s', p')) -> ports <> [] ->
  s_bufs sc = s_bufs s' -> in_use E EMaterial (s_world sc) b ->
  NoDup (map fst resps) -> deliverable (s_world sc) b (map fst resps) ->
  sum_qty (s_world sc) (map fst resps) <= demand (s_mkt s') ports ->
  y_accept E resps (sc, p') = (r, (sd, p2)) -> r <> UB ->
  r = Ok tt /\ exists b', nth_error (s_bufs sd) i = Some b' /\ b_cap b' = b_cap b /\
    quantity b' == quantity b + sum_qty (s_world sc) (map fst resps) /\
    (within_capacity b -> within_capacity b') /\ ole (quantity b') (l_target (limits_of a)) /\
    exists tq c tq' c', trk_quantity (s_bufs s) t = Ok tq /\ trk_capacity (s_bufs s) t = Ok c /\
      trk_quantity (s_bufs sd) t = Ok tq' /\ trk_capacity (s_bufs sd) t = Ok c' /\
      c' == c /\ tq' == tq + sum_qty (s_world sc) (map fst resps) /\ (tq <= c -> tq' <= c').
Proof.
  intros U SZ EP EE B T TR NDT IN H NE SB IU ND DL LE AC NU.
  destruct (requests_within _ _ _ _ _ _ _ _ _ _ _ _ _ _ U SZ EP B T H NE) as [ts [tq [TS [TQ [_ [_ [DP [PO _]]]]]]]].
  pose proof (used_cfg _ _ _ _ _ _ _ _ _ U) as [S [R [C Z]]].
  apply requests_spec in H as [[K1 [K2 [K3 [K4 [K5 _]]]]] _]; [|assumption|discriminate].
  pose proof IU as IU'. apply in_use_BI in IU' as [EO [RC I]].
  assert (ready p') as R' by (now apply dvals_ready with p).
  assert (y_buf p' = Some i) as Y'. { apply params_inj in K1 as [_ [_ [K1 _]]]. rewrite K1. apply S. }
  assert (nth_error (s_bufs sc) i = Some b) as B' by (rewrite SB, K4; assumption).
  destruct (accept_spec _ _ _ _ _ _ _ _ _ AC NU R' Y' B' EO RC I ND) as [_ [_ [_ [_ [_ [_ [_ [_ [_ [[b' [A1 [A2 [_ [A3 A4]]]]] _]]]]]]]]]].
  assert (0 <= sum_qty (s_world sc) (map fst resps)) as POS.
  { rewrite sum_vw. apply sumv_can with b. intros j J. destruct (proj1 DL j J) as [x [c [X1 [X2 [X3 X4]]]]].
    exists x. split; [assumption|]. split; [unfold casts; now rewrite X2|]. auto. }
  destruct PO as [P1 [P2 [P3 P4]]].
  assert (r = Ok tt) as ->.
  { apply A4.
    - intros j J. destruct (proj1 DL j J) as [x [c [X1 [X2 [X3 X4]]]]].
      exists x. split; [assumption|]. split; [unfold casts; now rewrite X2|]. auto.
    - intros BK. apply mixable_mixv. now apply (proj2 DL).
    - unfold fits. destruct (space b) as [sp|]; [|trivial]. cbn [ole] in P2. lra. }
  split; [reflexivity|]. specialize (A3 eq_refl). exists b'.
  split; [rewrite A1; apply nth_upd_same; apply nth_error_Some; congruence|]. split; [apply A2|]. split; [assumption|].
  assert (exists s0, trk_buf_space (s_bufs s) i t = Ok s0 /\ sum_qty (s_world sc) (map fst resps) <= s0) as [s0 [S0 L0]].
  { unfold trk_buf_space. rewrite B, TS. cbn [rbind]. eexists. split; [reflexivity|].
    destruct (space b) as [sp|]; cbn [ole] in P2; [|lra]. unfold qmin. destruct (Qltb_spec ts sp); lra. }
  destruct (room _ _ _ _ _ b' _ _ TR NDT IN B S0 (conj POS L0) (proj1 A2) A3) as [c [q [c' [q' [X1 [X2 [X3 [X4 [X5 [X6 [X7 X8]]]]]]]]]]].
  split; [exact X8|]. split.
  - destruct (l_target (limits_of a)) as [g|]; [|exact Logic.I]. cbn [ole]. rewrite A3. lra.
  - rewrite A1, SB, K4. exists q, c, q', c'. auto 10.
Qed.

(** Nothing is asked for in a dormant period or above the reorder level. *)
Lemma requests_none E eps mgr i k a s p got r s' p' t tq :
  used E eps mgr i k a s p got -> 0 < eps -> nth_error (s_trks s) k = Some t -> trk_quantity (s_bufs s) t = Ok tq ->
  (y_dormant (w_time (s_world s)) p = true \/ exists x, l_reorder (limits_of a) = Some x /\ x < tq) ->
  y_requests eps (s, p) = (r, (s', p')) -> r <> UB -> r = Ok [] \/ exists e, r = Throw e.
Proof.
  intros U EP T TQ D H N. apply used_cfg in U as [S [R _]]. destruct S as [S1 [S2 [S3 [S4 [S5 [S6 _]]]]]].
  apply requests_spec in H as [_ [[e [X _]]|[ports' [-> [_ [k' [t' [tq' [K [T' [TQ' [am [AM PO]]]]]]]]]]]]]; [eauto| |assumption|assumption].
  rewrite S3 in K. injection K as <-. rewrite T in T'. injection T' as <-. rewrite TQ in TQ'. injection TQ' as <-.
  destruct AM as [[A1 [A2 _]]|[_ ->]].
  - exfalso. destruct D as [D|[x [D1 D2]]]; [congruence|]. rewrite D1 in S6. cbn [ole] in S6. lra.
  - destruct PO as [[_ ->]|[L _]]; [auto|lra].
Qed.
