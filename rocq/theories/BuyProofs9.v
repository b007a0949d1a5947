(** C39: always active, and the cumulative cap. *)
From Verif Require Import Base CompModel CompSpec PackageModel ResourceModel ResourceSpec BufModel BufSpec
  BufProofs1 BufProofs2 BufProofs3 BufProofs4 BufProofs5 BufProofs6 BufProofs7
  GreedyModel ExchangeModel TrackerModel TrackerSpec TrackerProofs BuyModel BuySpec BuyProofs1 BuyProofs2 BuyProofs3 BuyProofs4 BuyProofs5 BuyProofs8.
Local Open Scope Q_scope.
Local Opaque DBL_MAX.

(** ** No dormant periods *)
Section Always.
Variables (E : env) (eps : Q) (mgr : Z) (i k : nat) (a : init_args) (t0 : Z) (rows0 : list cyc_row) (bc : option Q).
Hypothesis (EP : 0 < eps) (T0 : (0 <= t0)%Z) (NC : l_cap (limits_of a) = None) (ND : never_dormant a).
Lemma never_inv t s p tr : steps E eps mgr i k a t0 rows0 bc t s p tr ->
  y_nde p = (-1)%Z /\ s_rows s = rows0 ++ [mkCyc mgr t0 "Active" (first_active a)].
Proof.
  induction 1 as [id s s' p b T R CP B BC H|t s p tr commod comp pref ST IH|t s p tr commod ST IH|t s p tr sa ports sb p1 se ST IH T R H SE|
      t s p tr sa ports sb p1 sc resps sd p2 se ST IH T R H NE T2 R2 AC NDP [b [B [U BK]]] SE].
  - apply init_spec in H as [p0 [S [DS [C [NDE [_ H]]]]]]; [|assumption].
    apply init_cycle_spec with (m := mgr) in H; [|apply S]. cbv zeta in H.
    destruct H as [_ [_ [_ [_ [_ [_ [_ H]]]]]]].
    rewrite (stored_cum _ _ _ _ _ S), NC, T in H.
    assert ((i_vals (odef (fixed_int (-1)) (y_dd p0)) (i_pos (odef (fixed_int (-1)) (y_dd p0))) <? 0)%Z = true) as L.
    { apply Z.ltb_lt. unfold never_dormant in ND. destruct a as [|? ad [dd|] sd|? ?|? ? ? ?|? ? ?|? ? ?]; injection DS as AD DD SD;
        rewrite DD; cbn [odef fixed_int i_vals i_pos]; try lia; try assumption. }
    rewrite L in H. cbn [orb] in H. destruct H as [H1 [_ H2]]. split; [assumption|]. rewrite H2, R. do 2 f_equal. f_equal.
    unfold first_active. destruct a as [|? [ad|] dd sd|? ?|? ? ? ?|? ? ?|? ? ?]; injection DS as AD DD SD; rewrite AD; reflexivity.
  - exact IH.
  - exact IH.
  - destruct IH as [I1 I2]. pose proof (steps_wf _ _ _ _ _ _ _ _ _ _ _ _ _ EP ST) as [W L].
    apply requests_cycle in H as [_ [_ [_ [_ H]]]]; [|apply W|assumption]. unfold same_cycle_rows in *. rewrite T in H.
    destruct H as [[_ [_ [H1 [_ [_ H2]]]]]|[[X _]|[X _]]]; try (rewrite X in L; lia).
    split; [congruence|]. now rewrite SE, H2, R.
  - destruct IH as [I1 I2]. pose proof (steps_wf _ _ _ _ _ _ _ _ _ _ _ _ _ EP ST) as [[S RD] L].
    apply requests_cycle in H as [_ [P [D [_ H]]]]; try assumption. unfold same_cycle_rows in *. rewrite T in H.
    assert (stored a mgr i k p1) as S1 by now apply stored_params with p. assert (ready p1) as RD1 by now apply dvals_ready with p.
    destruct (accept_plain _ _ _ _ _ _ _ _ _ _ _ S1 RD1 NC AC B U NDP) as [X1 [X2 [X3 [X4 X5]]]].
    destruct H as [[_ [_ [H1 [_ [_ H2]]]]]|[[X _]|[X _]]]; try (rewrite X in L; lia).
    split; [congruence|]. now rewrite SE, X5, R2, H2, R.
Qed.
End Always.

(** ** The cumulative cap *)
(** Where [cap_rows] stands after a trace. *)
Fixpoint fin (cap eps : Q) (n : nat) (got : Q) (tr : list (Z * bool * option Q)) : nat * Q :=
  match tr with
  | [] => (n, got)
  | (_, _, None) :: tr => fin cap eps n got tr
  | (t, _, Some m) :: tr => if Qltb (cap - (got + m)) eps then fin cap eps (S n) 0 tr else fin cap eps n (got + m) tr
  end.
Lemma cap_rows_app mgr cap eps dor tr1 tr2 : forall n got,
  cap_rows mgr cap eps dor n got (tr1 ++ tr2) = cap_rows mgr cap eps dor n got tr1 ++
    (let '(n', got') := fin cap eps n got tr1 in cap_rows mgr cap eps dor n' got' tr2).
Proof.
  induction tr1 as [|[[t b] [m|]] tr1 IH]; intros n got; cbn [app cap_rows fin]; [reflexivity| |apply IH].
  destruct (Qltb _ _); [cbn [app]; now rewrite IH|apply IH].
Qed.
Lemma fin_app cap eps tr1 tr2 : forall n got,
  fin cap eps n got (tr1 ++ tr2) = let '(n', got') := fin cap eps n got tr1 in fin cap eps n' got' tr2.
Proof.
  induction tr1 as [|[[t b] [m|]] tr1 IH]; intros n got; cbn [app fin]; [reflexivity| |apply IH].
  destruct (Qltb _ _); apply IH.
Qed.
Lemma dormant_app r1 r2 t : dormant_row (r1 ++ r2) t <-> dormant_row r1 t \/ dormant_row r2 t.
Proof.
  unfold dormant_row. split.
  - intros [r [H1 H2]]. apply in_app_iff in H1 as [H1|H1]; eauto.
  - intros [[r [H1 H2]]|[r [H1 H2]]]; exists r; split; try assumption; apply in_app_iff; auto.
Qed.
Lemma dormant_one mgr x len t : dormant_row [mkCyc mgr x "Dormant" len] t <-> (x <= t < x + len)%Z.
Proof.
  unfold dormant_row. split.
  - intros [r [[<-|[]] [_ H]]]. exact H.
  - intros H. eexists. split; [left; reflexivity|]. split; [reflexivity|exact H].
Qed.

Section Cum.
Variables (E : env) (eps : Q) (mgr : Z) (i k : nat) (thr cap : Q) (dd : option idist) (t0 : Z) (rows0 : list cyc_row) (bc : option Q).
Hypothesis (EP : 0 < eps) (T0 : (0 <= t0)%Z).
Let a := ICumulative thr cap dd.
Let D := odef (fixed_int (-1)) dd.
Let dor n := i_vals D (S (i_pos D + n)).
Let c := omin cap bc.
Local Notation crows tr := (cap_rows mgr c (e_eps E) dor 0 0 tr).
Definition cum_inv (t : Z) (s : sys) (p : pol) (tr : list (Z * bool * option Q)) : Prop :=
  let '(n, got) := fin c (e_eps E) 0 0 tr in
  y_cum p = c /\ y_cycle p == got /\ y_dd p = Some (mkI (i_vals D) (S (i_pos D + n))) /\ y_nae p = (t0 + 1)%Z /\
  (t = t0 -> y_nde p = (-1)%Z) /\
  (forall t', (t <= t')%Z -> (dormant_row (crows tr) t' <-> (t0 + 1 <= t' < y_nde p)%Z)) /\
  s_rows s = rows0 ++ mkCyc mgr t0 "CumulativeCap" 1 :: crows tr.
Lemma cum_dormant t s p tr : (t0 <= t)%Z -> cum_inv t s p tr -> (y_dormant t p = true <-> dormant_row (crows tr) t).
Proof.
  unfold cum_inv. destruct (fin _ _ _ _ tr) as [n got]. intros L [_ [_ [_ [N1 [N2 [N3 _]]]]]].
  unfold y_dormant. rewrite N1, andb_true_iff, Z.leb_le, Z.ltb_lt. symmetry. apply N3. lia.
Qed.
(** Being asked for requests. *)
Lemma cum_req t s p tr sa ports sb p1 : (t0 <= t)%Z -> cum_inv t s p tr -> wf_args a mgr i k p ->
  w_time (s_world sa) = t -> same_cycle_rows s sa ->
  y_requests eps (sa, p) = (Ok ports, (sb, p1)) ->
  cum_inv (t + 1) sb p1 tr /\ (ports <> [] -> ~ dormant_row (crows tr) t /\ forall t', (t + 1 <= t')%Z -> ~ dormant_row (crows tr) t').
Proof.
  intros L0 INV [St RD] T R H. pose proof (cum_dormant _ _ _ _ L0 INV) as DO.
  apply requests_cycle in H as [H0 [HP [_ [HC H]]]]; try assumption. unfold same_cycle_rows in R. rewrite T in H, H0.
  pose proof (params_inj _ _ HP) as [_ [_ [_ [_ [_ [_ [_ [_ [PC _]]]]]]]]].
  assert (ports <> [] -> ~ dormant_row (crows tr) t) as A1.
  { intros NE. specialize (H0 NE). intros X. apply DO in X. congruence. }
  unfold cum_inv in *. destruct (fin _ _ _ _ tr) as [n got]. destruct INV as [N1 [N2 [N3 [N4 [N5 [N6 N7]]]]]].
  assert (ports <> [] -> forall t', (t + 1 <= t')%Z -> ~ dormant_row (crows tr) t') as A2.
  { intros NE t' Lt X. specialize (A1 NE). rewrite N6 in X by lia. rewrite N6 in A1 by lia.
    destruct (Z.eq_dec t t0) as [e|e]; [specialize (N5 e); lia|lia]. }
  split; [|auto]. split; [congruence|]. split; [now rewrite HC|].
  destruct H as [[H1 [H2 [H3 [H4 [H5 H6]]]]]|[[H1 [_ [H2 [H3 [H4 [H5 H6]]]]]]|[_ [X _]]]].
  - rewrite H5, H2, H6, R, H3. split; [assumption|]. split; [assumption|]. split; [lia|]. split; [|assumption].
    intros t' Lt. apply N6. lia.
  - rewrite H5, H2, H6, R, H3. split; [assumption|]. split; [assumption|]. split; [lia|]. split; [|assumption].
    intros t' Lt. rewrite N6 by lia. lia.
  - rewrite (stored_cum _ _ _ _ _ St) in X. discriminate.
Qed.
Lemma cum_steps t s p tr : steps E eps mgr i k a t0 rows0 bc t s p tr -> cum_inv t s p tr /\
  forall t' m, In (t', true, m) tr -> (t0 <= t' < t)%Z /\ ~ dormant_row (crows tr) t'.
Proof.
  induction 1 as [id s s' p b T R CP B BC H|t s p tr commod comp pref ST IH|t s p tr commod ST IH|t s p tr sa ports sb p1 se ST IH T R H SE|
      t s p tr sa ports sb p1 sc resps sd p2 se ST IH T R H NE T2 R2 AC ND [b [B [U BK]]] SE].
  - split; [|intros t' m []]. apply init_spec in H as [p0 [S [DS [C [NDE [CU H]]]]]]; [|assumption].
    injection DS as AD DD SD. apply init_cycle_spec with (m := mgr) in H; [|apply S]. cbv zeta in H. rewrite AD, DD in H. cbn [odef i_vals i_pos bump fixed_int] in H.
    fold D in H. destruct H as [_ [HP [HC [_ [H1 [H2 [H3 H4]]]]]]].
    rewrite (stored_cum _ _ _ _ _ S) in H4. cbn [a limits_of l_cap] in H4. rewrite orb_true_r in H4. destruct H4 as [H4 [H5 H6]]. rewrite T in *.
    pose proof (params_inj _ _ HP) as [_ [_ [_ [_ [_ [_ [_ [_ [PC _]]]]]]]]].
    unfold cum_inv. cbn [fin cap_rows]. split; [rewrite PC, (CU b cap B eq_refl), BC; reflexivity|]. split; [rewrite HC, C; reflexivity|].
    split; [rewrite H5, Nat.add_0_r; reflexivity|]. split; [lia|]. split; [auto|]. split; [|now rewrite H6, R].
    intros t' L. rewrite H4. split; [intros [r [[] _]]|lia].
  - exact IH.
  - exact IH.
  - destruct IH as [INV TR]. pose proof (steps_wf _ _ _ _ _ _ _ _ _ _ _ _ _ EP ST) as [W L].
    destruct (cum_req _ _ _ _ _ _ _ _ L INV W T R H) as [INV' NO]. clear INV.
    assert (crows (tr ++ [(t, negb match ports with [] => true | _ :: _ => false end, None)]) = crows tr) as CR.
    { rewrite cap_rows_app. destruct (fin _ _ _ _ tr). apply app_nil_r. }
    split.
    + unfold cum_inv in *. rewrite fin_app. destruct (fin c (e_eps E) 0 0 tr) as [n got]. cbn [fin]. rewrite CR.
      unfold same_cycle_rows in SE. rewrite SE. exact INV'.
    + intros t' m K. rewrite CR. apply in_app_iff in K as [K|[K|[]]]; [destruct (TR _ _ K); split; [lia|assumption]|]. injection K as <- K _. split; [lia|].
      destruct NO as [NO _]; [intros ->; discriminate|exact NO].
  - destruct IH as [INV TR]. pose proof (steps_wf _ _ _ _ _ _ _ _ _ _ _ _ _ EP ST) as [W L].
    destruct (cum_req _ _ _ _ _ _ _ _ L INV W T R H) as [INV' NO]. clear INV. destruct (NO NE) as [NO1 NO2].
    pose proof H as H'. apply requests_cycle in H' as [_ [P [DV _]]]; [|apply W|assumption]. destruct W as [S RD].
    assert (stored a mgr i k p1) as S1 by now apply stored_params with p. assert (ready p1) as RD1 by now apply dvals_ready with p.
    pose proof U as U'. apply in_use_BI in U' as [EO [RC I]].
    pose proof (accept_spec E i resps sc p1 (Ok tt) sd p2 b AC ltac:(discriminate) RD1 ltac:(apply S1) B EO RC I ND) as X.
    destruct X as [AP [_ [_ [_ [AN [_ [_ [_ [_ [_ [_ X]]]]]]]]]]].
    rewrite (stored_cum _ _ _ _ _ S1) in X. specialize (X eq_refl (BK ltac:(discriminate)) eq_refl). cbv zeta in X.
    pose proof (params_inj _ _ AP) as [_ [_ [_ [_ [_ [_ [_ [_ [PC _]]]]]]]]].
    set (m := sum_qty (s_world sc) (map fst resps)) in *. unfold same_cycle_rows in SE, R2. rewrite T2 in X.
    unfold cum_inv in INV' |- *. rewrite fin_app. rewrite (cap_rows_app mgr c (e_eps E) dor tr [(t, true, Some m)]).
    destruct (fin c (e_eps E) 0 0 tr) as [n got]. cbn [fin cap_rows].
    destruct INV' as [N1 [N2 [N3 [N4 [N5 [N6 N7]]]]]]. rewrite N1 in X.
    destruct (Qltb_spec (c - (got + m)) (e_eps E)) as [Q|Q].
    + destruct X as [[X _]|[_ [X1 [mm [d [X2 [X3 [X4 [X5 X6]]]]]]]]]; [rewrite N2 in X; lra|].
      rewrite N3 in X3. injection X3 as <-. cbn [i_vals i_pos] in X4, X5, X6. assert (mm = mgr) as -> by (pose proof (proj1 S1) as Z1; congruence).
      split.
      * rewrite PC, AN, X5, X4, SE, X6, R2, N7. split; [assumption|]. split; [assumption|]. split; [do 3 f_equal; lia|]. split; [assumption|].
        split; [lia|]. split; [|unfold dor; rewrite <- app_assoc; reflexivity].
        intros t' Lt. rewrite dormant_app, dormant_one. unfold dor. split; [intros [Z1|Z1]|right; lia].
        -- destruct (NO2 t' ltac:(lia) Z1).
        -- lia.
      * intros t' m' K. apply in_app_iff in K as [K|[K|[]]].
        -- destruct (TR _ _ K) as [Z1 Z2]. split; [lia|]. rewrite dormant_app, dormant_one. intros [Z3|Z3]; [auto|lia].
        -- injection K as <- _. split; [lia|]. rewrite dormant_app, dormant_one. intros [Z3|Z3]; [auto|lia].
    + destruct X as [[_ [X1 [X2 [X3 X4]]]]|[X _]]; [|rewrite N2 in X; lra].
      rewrite app_nil_r. split.
      * rewrite PC, AN, X2, X3, SE, X4, R2. split; [assumption|]. split; [rewrite X1, N2; reflexivity|]. auto 10.
      * intros t' m' K. apply in_app_iff in K as [K|[K|[]]]; [destruct (TR _ _ K); split; [lia|assumption]|]. injection K as <- _. split; [lia|assumption].
Qed.
End Cum.

Lemma always_active : forall E eps mgr i k a t0 rows0 bc t s p tr,
  0 < eps -> (0 <= t0)%Z -> l_cap (limits_of a) = None -> never_dormant a ->
  steps E eps mgr i k a t0 rows0 bc t s p tr ->
  (forall t', (0 <= t')%Z -> y_dormant t' p = false) /\
  s_rows s = rows0 ++ [mkCyc mgr t0 "Active" (first_active a)].
Proof.
  intros E eps mgr i k a t0 rows0 bc t s p tr EP T0 NC ND ST.
  destruct (never_inv _ _ _ _ _ _ _ _ _ EP T0 NC ND _ _ _ _ ST) as [H1 H2]. split; [|exact H2].
  intros t' L. unfold y_dormant. rewrite H1. apply andb_false_intro2, Z.ltb_ge. lia.
Qed.
Lemma cap_rows_ext mgr cap eps d1 d2 tr : (forall n, d1 n = d2 n) -> forall n got, cap_rows mgr cap eps d1 n got tr = cap_rows mgr cap eps d2 n got tr.
Proof.
  intros X. induction tr as [|[[t b] [m|]] tr IH]; intros n got; cbn [cap_rows]; [reflexivity| |apply IH].
  destruct (Qltb _ _); [now rewrite X, IH|apply IH].
Qed.
Lemma cumulative : forall E eps mgr i k thr cap dd t0 rows0 bc t s p tr,
  0 < eps -> (0 <= t0)%Z ->
  steps E eps mgr i k (ICumulative thr cap dd) t0 rows0 bc t s p tr ->
  let len n := match dd with Some d => i_vals d (S (i_pos d + n)) | None => (-1)%Z end in
  let rows := cap_rows mgr (omin cap bc) (e_eps E) len 0 0 tr in
  s_rows s = rows0 ++ mkCyc mgr t0 "CumulativeCap" 1 :: rows /\
  (y_dormant t p = true <-> dormant_row rows t) /\
  (forall t' m, In (t', true, m) tr -> ~ dormant_row rows t').
Proof.
  intros E eps mgr i k thr cap dd t0 rows0 bc t s p tr EP T0 ST len rows.
  destruct (cum_steps _ _ _ _ _ _ _ _ _ _ _ EP T0 _ _ _ _ ST) as [INV TR].
  pose proof (steps_wf _ _ _ _ _ _ _ _ _ _ _ _ _ EP ST) as [_ L].
  assert (rows = cap_rows mgr (omin cap bc) (e_eps E) (fun n => i_vals (odef (fixed_int (-1)) dd) (S (i_pos (odef (fixed_int (-1)) dd) + n))) 0 0 tr) as ->
    by (apply cap_rows_ext; intros n; unfold len; destruct dd; reflexivity).
  split; [|split].
  - unfold cum_inv in INV. destruct (fin _ _ _ _ tr). apply INV.
  - exact (cum_dormant _ _ _ _ _ _ _ _ _ _ _ L INV).
  - intros t' m K. exact (proj2 (TR _ _ K)).
Qed.
