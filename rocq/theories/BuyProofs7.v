(** C38: a policy asks for as much as it may. *)
From Verif Require Import Base CompModel CompSpec PackageModel ResourceModel ResourceSpec BufModel BufSpec
  BufProofs1 BufProofs2 BufProofs3 BufProofs4 BufProofs5 BufProofs6 BufProofs7
  GreedyModel ExchangeModel TrackerModel TrackerSpec TrackerProofs BuyModel BuySpec BuyProofs1 BuyProofs2 BuyProofs3 BuyProofs4 BuyProofs5 BuyProofs6.
Local Open Scope Q_scope.
Local Opaque DBL_MAX.

Definition plain (thr : Q) (p : pol) : Prop :=
  y_thr p = thr /\ y_fill p = DBL_MAX /\ y_reqat p = DBL_MAX /\ y_quant p = -1 /\ y_cum p = -1 /\
  exists d, y_sd p = Some d /\ forall n, d_vals d n = 1.
Lemma plain_keep thr p p' : plain thr p -> params p' = params p -> dvals p' = dvals p -> plain thr p'.
Proof.
  intros [A1 [A2 [A3 [A4 [A5 [d [A6 A7]]]]]]] P D. apply params_inj in P as [_ [_ [_ [_ [B1 [B2 [B3 [B4 [B5 _]]]]]]]]].
  unfold dvals in D. injection D as _ _ D. rewrite A6 in D. destruct (y_sd p') as [d'|] eqn:S; [|discriminate]. cbn in D. injection D as D _.
  unfold plain. rewrite B1, B2, B3, B4, B5, S. repeat split; try assumption. exists d'. split; [reflexivity|]. now rewrite D.
Qed.
Lemma used_plain E eps mgr i k thr ad dd s p got : used E eps mgr i k (IThroughput thr ad dd None) s p got -> plain thr p.
Proof.
  remember (IThroughput thr ad dd None) as a eqn:A. intros U.
  assert (forall s p got, used E eps mgr i k a s p got -> cfg a mgr i k p got) as CF by (intros; eapply used_cfg; eauto).
  induction U as [id s s' p CP H|s p got r s' p' US IH H N|s p got resps s' p' US IH H [b [B [U BK]]] ND|s p got c q x US IH|s p got c US IH|s p got s' US IH].
  - subst a. rewrite init_eq, !bind_pmod in H.
    apply ybind_ok in H as [[] [[s1 p1] [T H]]]. apply set_tracker_ok with (i := i) in T as [-> ->]; [|reflexivity].
    cbn [y_setup] in H. apply ybind_ok in H as [[] [[s2 p2] [S H]]]. rewrite !bind_pmod in S. injection S as <- <-.
    apply init_cycle_spec with (m := mgr) in H; [|reflexivity]. cbv zeta in H. destruct H as [_ [P [_ [SD _]]]].
    apply params_inj in P as [_ [_ [_ [_ [B1 [B2 [B3 [B4 [B5 _]]]]]]]]].
    unfold plain. rewrite B1, B2, B3, B4, B5, SD. unfold pol_new. psimp. psplit.
    exists (fixed_double 1). split; reflexivity.
  - apply requests_spec in H as [[K1 [K2 [K3 _]]] _]; [|apply (CF _ _ _ US)|assumption]. now apply plain_keep with p.
  - pose proof U as U'. apply in_use_BI in U' as [EO [RC I]]. destruct (CF _ _ _ US) as [S [R _]].
    pose proof (accept_spec E i resps s p (Ok tt) s' p' b H ltac:(discriminate) R ltac:(apply S) B EO RC I ND) as X.
    destruct X as [A1 [A2 _]]. now apply plain_keep with p.
  - exact IH.
  - exact IH.
  - exact IH.
Qed.

Lemma qmin_glb x a b : x <= a -> x <= b -> x <= qmin a b.
Proof. unfold qmin. destruct (Qltb b a) eqn:?; destruct (Qltb_spec b a); intros; try congruence; assumption. Qed.

Lemma requests_full E eps mgr i k thr ad dd s p got ports s' p' b t x ts tq :
  used E eps mgr i k (IThroughput thr ad dd None) s p got -> 0 < eps ->
  nth_error (s_bufs s) i = Some b -> nth_error (s_trks s) k = Some t ->
  trk_space (s_bufs s) t = Ok ts -> trk_quantity (s_bufs s) t = Ok tq -> tq <= DBL_MAX ->
  y_dormant (w_time (s_world s)) p = false ->
  y_requests eps (s, p) = (Ok ports, (s', p')) ->
  eps <= x -> x <= thr -> ole x (space b) -> x <= ts -> x <= DBL_MAX - quantity b -> x <= DBL_MAX ->
  x <= demand (s_mkt s') ports.
Proof.
  intros U EP B T TS TQ QM DO H X0 X1 X2 X3 X4 X5.
  pose proof (used_plain _ _ _ _ _ _ _ _ _ _ _ U) as [P1 [P2 [P3 [P4 [P5 [d [P6 P7]]]]]]].
  apply used_cfg in U as [S [R _]].
  apply requests_spec in H as [_ [[e [Z _]]|[ports' [Z [_ [k' [t' [tq' [K [T' [TQ' [am [AM PO]]]]]]]]]]]]]; [discriminate| |assumption|discriminate].
  injection Z as <-. destruct S as [S1 [S2 [S3 _]]]. rewrite S3 in K. injection K as <-. rewrite T in T'. injection T' as <-.
  rewrite TQ in TQ'. injection TQ' as <-.
  destruct AM as [[_ [_ [i' [b' [ts' [d' [I' [B' [TS' [SD AQ]]]]]]]]]]|[[Y|Y] ->]]; [|rewrite P3 in Y; lra|congruence].
  rewrite S2 in I'. injection I' as <-. rewrite B in B'. injection B' as <-. rewrite TS in TS'. injection TS' as <-.
  rewrite P6 in SD. injection SD as <-.
  assert (x <= am) as XA.
  { rewrite AQ. unfold amount. apply qmin_glb; [|unfold y_uses_cum; rewrite P5; exact X5]. rewrite P7, Qmult_1_r.
    apply qmin_glb; [|assumption]. rewrite P1, P2.
    assert (x <= qmin thr (DBL_MAX - quantity b)) by (apply qmin_glb; assumption).
    destruct (space b); cbn [omin ole] in *; [now apply qmin_glb|assumption]. }
  destruct PO as [[L _]|[_ [n [NR [_ [LN [_ PG]]]]]]]; [lra|].
  assert (y_excl p = false) as Y by (unfold y_excl; now rewrite P4).
  unfold y_nreq in NR. rewrite Y in *. injection NR as <-. change (Z.to_nat 1) with 1%nat in LN.
  destruct ports as [|z [|? ?]]; try discriminate. apply Forall_inv in PG as [_ [_ [G _]]]. unfold demand. cbn [map qsum]. rewrite G. lra.
Qed.
