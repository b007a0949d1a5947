(** GetMatlRequests. *)
From Verif Require Import Base CompModel PackageModel ResourceModel ResourceSpec BufModel BufSpec
  GreedyModel ExchangeModel TrackerModel TrackerSpec BuyModel BuySpec BuyProofs1 BuyProofs2.
Local Open Scope Q_scope.

Definition amount (p : pol) (b : buf) (ts f : Q) : Q :=
  qmin (qmin (omin (qmin (y_thr p) (y_fill p - quantity b)) (space b)) ts * f)
       (if y_uses_cum p then y_cum p - y_cycle p else DBL_MAX).

Lemma ybuf_inv s p r s' : ybuf (s, p) = (r, s') -> s' = (s, p) /\
  ((exists i b, y_buf p = Some i /\ nth_error (s_bufs s) i = Some b /\ r = Ok b) \/ r = UB).
Proof.
  unfold ybuf, ybind, ypol. cbn [snd]. destruct (y_buf p) as [i|]; cbn.
  - destruct (nth_error (s_bufs s) i) as [b|] eqn:B; cbn; intros H; injection H as <- <-; eauto 10.
  - intros H; injection H as <- <-; eauto.
Qed.
Lemma ytrk_inv s p r s' : ytrk (s, p) = (r, s') -> s' = (s, p) /\
  ((exists i b, y_trk p = Some i /\ nth_error (s_trks s) i = Some b /\ r = Ok b) \/ r = UB).
Proof.
  unfold ytrk, ybind, ypol. cbn [snd]. destruct (y_trk p) as [i|]; cbn.
  - destruct (nth_error (s_trks s) i) as [b|] eqn:B; cbn; intros H; injection H as <- <-; eauto 10.
  - intros H; injection H as <- <-; eauto.
Qed.
Lemma make_req_inv s p r s' : y_make_req (s, p) = (r, s') -> s' = (s, p) /\
  forall x, r = Ok x -> exists k t q, y_trk p = Some k /\ nth_error (s_trks s) k = Some t /\
    trk_quantity (s_bufs s) t = Ok q /\ x = Qleb q (y_reqat p).
Proof.
  unfold y_make_req. intros H. unfold ybind at 1, ypol in H. cbn [snd] in H. unfold ybind at 1 in H.
  destruct (ytrk (s, p)) as [r1 s1] eqn:T. apply ytrk_inv in T as [-> [[k [t [K [T ->]]]]| ->]].
  - unfold ybind, ysys, ylift, yret in H. cbn [fst] in H. destruct (trk_quantity (s_bufs s) t) as [q|e|] eqn:Q;
      injection H as <- <-; split; try reflexivity; intros x X; try discriminate.
    injection X as <-. eauto 10.
  - injection H as <- <-. split; [reflexivity|]. discriminate.
Qed.
Lemma available_inv s p r s' : y_available (s, p) = (r, s') -> s' = (s, p) /\
  forall x, r = Ok x -> exists i b k t ts, y_buf p = Some i /\ nth_error (s_bufs s) i = Some b /\
    y_trk p = Some k /\ nth_error (s_trks s) k = Some t /\ trk_space (s_bufs s) t = Ok ts /\
    x = qmin (omin (qmin (y_thr p) (y_fill p - quantity b)) (space b)) ts.
Proof.
  unfold y_available. intros H. unfold ybind at 1, ypol in H. cbn [snd] in H. unfold ybind at 1 in H.
  destruct (ybuf (s, p)) as [r1 s1] eqn:B. apply ybuf_inv in B as [-> [[i [b [I [B ->]]]]| ->]].
  2:{ injection H as <- <-. split; [reflexivity|]. discriminate. }
  unfold ybind at 1 in H.
  destruct (ytrk (s, p)) as [r1 s1] eqn:T. apply ytrk_inv in T as [-> [[k [t [K [T ->]]]]| ->]].
  - unfold ybind, ysys, ylift, yret in H. cbn [fst] in H. destruct (trk_space (s_bufs s) t) as [q|e|] eqn:Q;
      injection H as <- <-; split; try reflexivity; intros x X; try discriminate.
    injection X as <-. eauto 20.
  - injection H as <- <-. split; [reflexivity|]. discriminate.
Qed.

Lemma params_inj p p' : params p' = params p ->
  y_id p' = y_id p /\ y_mgr p' = y_mgr p /\ y_buf p' = y_buf p /\ y_trk p' = y_trk p /\ y_fill p' = y_fill p /\
  y_reqat p' = y_reqat p /\ y_quant p' = y_quant p /\ y_thr p' = y_thr p /\ y_cum p' = y_cum p /\ y_commods p' = y_commods p.
Proof. unfold params. intros H. injection H as H1 H2 H3 H4 H5 H6 H7 H8 H9 H10. auto 20. Qed.

(** What a call leaves alone. *)
Definition kept (s : sys) (p : pol) (s' : sys) (p' : pol) : Prop :=
  params p' = params p /\ dvals p' = dvals p /\ y_cycle p' = y_cycle p /\
  s_bufs s' = s_bufs s /\ s_trks s' = s_trks s /\ w_time (s_world s') = w_time (s_world s) /\
  (exists x, w_res (s_world s') = w_res (s_world s) ++ x).
(** The cycle part of the call is exactly the check. *)
Definition checked (s : sys) (p : pol) (s' : sys) (p' : pol) : Prop :=
  exists p0 s1 p1, y_nae p0 = y_nae p /\ y_nde p0 = y_nde p /\ y_ad p0 = y_ad p /\ y_dd p0 = y_dd p /\ params p0 = params p /\ dvals p0 = dvals p /\
    y_check (s, p0) = (Ok tt, (s1, p1)) /\ p' = p1 /\ s_rows s' = s_rows s1.

Lemma rows_only_kept s s' : rows_only s s' -> s_bufs s' = s_bufs s /\ s_trks s' = s_trks s /\
  s_world s' = s_world s /\ s_mkt s' = s_mkt s.
Proof. unfold rows_only. intros ->. auto. Qed.

Lemma requests_spec eps s p r s' p' : ready p -> y_requests eps (s, p) = (r, (s', p')) -> r <> UB ->
  kept s p s' p' /\
  ((exists e, r = Throw e /\ s' = s /\ y_nae p' = y_nae p /\ y_nde p' = y_nde p /\ y_ad p' = y_ad p /\ y_dd p' = y_dd p) \/
   (exists ports, r = Ok ports /\ checked s p s' p' /\
    exists k t q, y_trk p = Some k /\ nth_error (s_trks s) k = Some t /\ trk_quantity (s_bufs s) t = Ok q /\
    exists a,
      ((q <= y_reqat p /\ y_dormant (w_time (s_world s)) p = false /\
        exists i b ts d, y_buf p = Some i /\ nth_error (s_bufs s) i = Some b /\ trk_space (s_bufs s) t = Ok ts /\
          y_sd p = Some d /\ a = amount p b ts (d_vals d (d_pos d))) \/
       ((y_reqat p < q \/ y_dormant (w_time (s_world s)) p = true) /\ a = 0)) /\
      ((a < eps /\ ports = []) \/
       (eps <= a /\ exists n, y_nreq p a = Some n /\ (0 <= n)%Z /\ length ports = Z.to_nat n /\ NoDup ports /\
         Forall (fun x => port_good (s_mkt s') x (y_id p) (y_commods p) (if y_excl p then y_quant p else a) (y_excl p)) ports)))).
Proof.
  intros R H NU. pose proof R as [[ag M] [[ad A] [[dd D] [sd S]]]].
  unfold y_requests in H. unfold ybind at 1, ypmod in H. cbn [fst snd] in H.
  set (p0 := y_set_rc [] p) in *.
  assert (params p0 = params p) as P0 by reflexivity.
  assert (dvals p0 = dvals p) as D0 by reflexivity.
  unfold ybind at 1 in H. rewrite (ytime_eq s p0 ag M) in H. unfold ybind at 1, ypol in H. cbn [snd] in H.
  unfold ybind at 1 in H. destruct (y_make_req (s, p0)) as [r1 sp1] eqn:MR. apply make_req_inv in MR as [-> MR].
  destruct r1 as [req|e|].
  2:{ injection H as <- <- <-. split; [|left; exists e; repeat split].
      unfold kept. repeat split. exists []. now rewrite app_nil_r. }
  2:{ injection H as <- <- <-. congruence. }
  destruct (MR _ eq_refl) as [k [t [q [K [T [Q ->]]]]]]. clear MR.
  unfold ybind at 1 in H.
  match type of H with (match ?X with _ => _ end = _) => destruct X as [ra [sa pa]] eqn:AM end.
  (* the amount *)
  assert (sa = s /\ params pa = params p /\ dvals pa = dvals p /\ y_cycle pa = y_cycle p /\
          y_nae pa = y_nae p /\ y_nde pa = y_nde p /\ y_ad pa = y_ad p /\ y_dd pa = y_dd p /\
          (forall a, ra = Ok a ->
            ((q <= y_reqat p /\ y_dormant (w_time (s_world s)) p = false /\
              exists i b ts d, y_buf p = Some i /\ nth_error (s_bufs s) i = Some b /\ trk_space (s_bufs s) t = Ok ts /\
                y_sd p = Some d /\ a = amount p b ts (d_vals d (d_pos d))) \/
             ((y_reqat p < q \/ y_dormant (w_time (s_world s)) p = true) /\ a = 0)))) as AMS.
  { change (y_reqat p0) with (y_reqat p) in AM.
    change (y_dormant (w_time (s_world s)) p0) with (y_dormant (w_time (s_world s)) p) in AM.
    destruct (Qleb_spec q (y_reqat p)) as [L|L]; [destruct (y_dormant (w_time (s_world s)) p) eqn:DO|]; cbn [andb negb] in AM.
    - injection AM as <- <- <-. repeat split. intros a X. injection X as <-. right. auto.
    - unfold ybind at 1 in AM. destruct (y_available (s, p0)) as [r1 sp1] eqn:AV. apply available_inv in AV as [-> AV].
      destruct r1 as [x|e|].
      2:{ injection AM as <- <- <-. repeat split. discriminate. }
      2:{ injection AM as <- <- <-. repeat split. discriminate. }
      destruct (AV _ eq_refl) as [i [b [k' [t' [ts [I [B [K' [T' [TS ->]]]]]]]]]]. clear AV.
      unfold ybind at 1 in AM. destruct (y_sample_size (s, p0)) as [r1 [s1 p1]] eqn:SS.
      apply sample_size_inv in SS as [[d [S1 [-> [-> ->]]]]|[S1 _]].
      2:{ change (y_sd p0) with (y_sd p) in S1. congruence. }
      change (y_trk p0) with (y_trk p) in K, K'. rewrite K in K'. injection K' as <-. rewrite T in T'. injection T' as <-.
      injection AM as <- <- <-. repeat split.
      + unfold dvals in *. ysimp. change (y_sd p0) with (y_sd p) in S1. rewrite S1. reflexivity.
      + intros a X. injection X as <-. left. split; [exact L|]. split; [reflexivity|]. exists i, b, ts, d.
        repeat split; try assumption.
    - injection AM as <- <- <-. repeat split. intros a X. injection X as <-. right. split; [left; lra|reflexivity]. }
  destruct AMS as [-> [PA [DA [CA [NA [ND [AA [AD AMS]]]]]]]].
  destruct ra as [a|e|].
  2:{ injection H as <- <- <-. split; [|left; exists e; repeat split; assumption].
      unfold kept. repeat split; try assumption. exists []. now rewrite app_nil_r. }
  2:{ injection H as <- <- <-. congruence. }
  specialize (AMS _ eq_refl). unfold ybind at 1 in H.
  assert (ready pa) as RA by (now apply dvals_ready with p).
  destruct (y_check (s, pa)) as [rc [sc pc]] eqn:CH. pose proof CH as CH'.
  apply check_frame in CH as [-> [PC [DC [CC RO]]]]; [|exact RA].
  apply rows_only_kept in RO as [RO1 [RO2 [RO3 RO4]]].
  destruct (Qltb_spec a eps) as [L|L].
  - injection H as <- <- <-. split.
    + unfold kept. rewrite RO1, RO2, RO3. repeat split; try congruence. exists []. now rewrite app_nil_r.
    + right. exists []. split; [reflexivity|]. split.
      { exists pa, sc, pc. repeat split; try assumption. }
      exists k, t, q. split; [exact K|]. split; [exact T|]. split; [exact Q|]. exists a. split; [exact AMS|]. left. auto.
  - change (y_nreq p0 a) with (y_nreq p a) in H.
    destruct (y_nreq p a) as [n|] eqn:NR; [|injection H as <- <- <-; congruence].
    destruct (Z.ltb_spec n 0) as [N0|N0]; [injection H as <- <- <-; congruence|].
    apply portfolios_spec in H as [-> [B1 [B2 [B3 [->|[ports [-> [LN [G [ND' [_ PG]]]]]]]]]]]; [congruence|].
    assert (y_id pc = y_id p /\ y_commods pc = y_commods p /\ y_excl pc = y_excl p) as [I1 [I2 I3]].
    { rewrite PA in PC. apply params_inj in PC. destruct PC as [X1 [_ [_ [_ [_ [_ [X2 [_ [_ X3]]]]]]]]].
      unfold y_excl. rewrite X2. auto. }
    split.
    + destruct G as [_ [_ [_ [G4 [[x G5] _]]]]]. unfold kept. rewrite B1, B2, G4, G5, RO1, RO2, RO3.
      repeat split; try congruence. eauto.
    + right. exists ports. split; [reflexivity|]. split.
      { exists pa, sc, pc. repeat split; try assumption. }
      exists k, t, q. split; [exact K|]. split; [exact T|]. split; [exact Q|]. exists a. split; [exact AMS|].
      right. split; [lra|]. exists n. repeat split; try assumption.
      rewrite <- I1, <- I2, <- I3. change (y_quant p) with (y_quant p0). rewrite I3.
      change (y_excl p0) with (y_excl p) in PG. rewrite I3 in PG. exact PG.
Qed.
