(** C39: the timetable. *)
From Verif Require Import Base CompModel CompSpec PackageModel ResourceModel ResourceSpec BufModel BufSpec
  BufProofs1 BufProofs2 BufProofs3 BufProofs4 BufProofs5 BufProofs6 BufProofs7
  GreedyModel ExchangeModel TrackerModel TrackerSpec TrackerProofs BuyModel BuySpec BuyProofs1 BuyProofs2 BuyProofs3 BuyProofs4 BuyProofs5.
Local Open Scope Q_scope.
Local Opaque DBL_MAX.

(** ** The timetable by itself *)
Section Table.
Variables (t0 : Z) (act dor : nat -> Z).
Hypothesis (A1 : forall n, (1 <= act n)%Z) (D0 : forall n, (0 <= dor n)%Z).
Local Notation ps := (period_start t0 act dor).
Lemma ps_step n : (ps n < ps (S n))%Z.
Proof. cbn [period_start]. specialize (A1 n). specialize (D0 n). lia. Qed.
Lemma ps_lt n m : (n < m)%nat -> (ps n < ps m)%Z.
Proof.
  induction 1 as [|m H IH]; [apply ps_step|]. pose proof (ps_step m). lia.
Qed.
Lemma ps_le n m : (n <= m)%nat -> (ps n <= ps m)%Z.
Proof. intros H. destruct (Nat.eq_dec n m) as [->|]; [lia|]. assert (n < m)%nat as L by lia. apply ps_lt in L. lia. Qed.
Lemma ps_uniq n m t : (ps n <= t < ps (S n))%Z -> (ps m <= t < ps (S m))%Z -> n = m.
Proof.
  intros H1 H2. destruct (lt_eq_lt_dec n m) as [[L|L]|L]; [|assumption|].
  - assert (S n <= m)%nat as K by lia. apply ps_le in K. lia.
  - assert (S m <= n)%nat as K by lia. apply ps_le in K. lia.
Qed.
Lemma ps_grow n : (t0 + Z.of_nat n <= ps n)%Z.
Proof. induction n as [|n IH]; [cbn; lia|]. pose proof (ps_step n). lia. Qed.
Lemma ps_find t : (t0 <= t)%Z -> exists n, (ps n <= t < ps (S n))%Z.
Proof.
  intros H. assert (exists m, (t < ps m)%Z) as [m Hm].
  { exists (Z.to_nat (t - t0 + 1)). pose proof (ps_grow (Z.to_nat (t - t0 + 1))). lia. }
  induction m as [|m IH]; [cbn in Hm; lia|].
  destruct (Z_lt_dec t (ps m)) as [L|L]; [auto|]. exists m. lia.
Qed.
Lemma partition t : (t0 <= t)%Z ->
  (is_active t0 act dor t \/ is_dormant t0 act dor t) /\ ~ (is_active t0 act dor t /\ is_dormant t0 act dor t).
Proof.
  intros H. split.
  - destruct (ps_find t H) as [n [N1 N2]]. destruct (Z_lt_dec t (ps n + act n)) as [L|L].
    + left. exists n. lia.
    + right. exists n. lia.
  - intros [[n N] [m M]]. assert (n = m); [|subst; lia].
    apply ps_uniq with t; [|specialize (A1 m); lia].
    split; [lia|]. cbn [period_start]. specialize (D0 n). lia.
Qed.
End Table.

(** ** Unfolding the check *)
Lemma check_skip s p s' p' : ready p -> w_time (s_world s) <> y_nde p -> y_check (s, p) = (Ok tt, (s', p')) -> s' = s /\ p' = p.
Proof.
  intros [[a M] _] NE H. unfold y_check in H. unfold ybind at 1 in H. rewrite (ytime_eq _ _ _ M), bind_pol in H.
  destruct (Z.eqb_spec (w_time (s_world s)) (y_nde p)); [congruence|]. injection H as <- <-. auto.
Qed.
Lemma check_cum s p s' p' : ready p -> w_time (s_world s) = y_nde p -> y_uses_cum p = true -> y_check (s, p) = (Ok tt, (s', p')) ->
  s' = s /\ p' = y_set_nde (-1) p.
Proof.
  intros [[a M] _] NE U H. unfold y_check in H. unfold ybind at 1 in H. rewrite (ytime_eq _ _ _ M), bind_pol in H.
  destruct (Z.eqb_spec (w_time (s_world s)) (y_nde p)); [|congruence]. rewrite U in H. injection H as <- <-. auto.
Qed.
Lemma check_next s p s' p' m A D : y_mgr p = Some m -> y_ad p = Some A -> y_dd p = Some D ->
  w_time (s_world s) = y_nde p -> (0 <= w_time (s_world s))%Z -> y_uses_cum p = false -> y_check (s, p) = (Ok tt, (s', p')) ->
  let t := w_time (s_world s) in let la := i_vals A (i_pos A) in let ld := i_vals D (i_pos D) in
  y_ad p' = Some (bump A) /\ y_dd p' = Some (bump D) /\ y_nae p' = (la + t)%Z /\ y_nde p' = (ld + Z.max (la + t) 1)%Z /\
  s_rows s' = s_rows s ++ [mkCyc m t "Active" la; mkCyc m (Z.max (la + t) 1) "Dormant" ld].
Proof.
  intros M YA YD NE T0 U H. unfold y_check in H. unfold ybind at 1 in H. rewrite (ytime_eq _ _ _ M), bind_pol in H.
  destruct (Z.eqb_spec (w_time (s_world s)) (y_nde p)); [|congruence]. rewrite U in H.
  unfold ybind in H. rewrite (next_active_eq _ _ _ _ M YA) in H. rewrite U in H.
  erewrite next_dormant_eq in H; [|ysimp; exact M|ysimp; exact YD].
  match type of H with (if ?b then _ else _) = _ => assert (b = false) as Ub by (unfold y_uses_cum in *; ysimp; exact U); rewrite Ub in H end.
  ysimp. rewrite <- NE in H. destruct (Z.leb_spec 0 (w_time (s_world s))); [|lia]. injection H as <- <-. ysimp.
  rewrite <- app_assoc. repeat split.
Qed.

(** What a successful call for requests does to the cycle. *)
Lemma requests_cycle eps s p ports s' p' : ready p -> 0 < eps -> y_requests eps (s, p) = (Ok ports, (s', p')) ->
  (ports <> [] -> y_dormant (w_time (s_world s)) p = false) /\
  params p' = params p /\ dvals p' = dvals p /\ y_cycle p' = y_cycle p /\
  ((w_time (s_world s) <> y_nde p /\ y_nae p' = y_nae p /\ y_nde p' = y_nde p /\ y_ad p' = y_ad p /\ y_dd p' = y_dd p /\ s_rows s' = s_rows s) \/
   (w_time (s_world s) = y_nde p /\ y_uses_cum p = true /\ y_nae p' = y_nae p /\ y_nde p' = (-1)%Z /\
      y_ad p' = y_ad p /\ y_dd p' = y_dd p /\ s_rows s' = s_rows s) \/
   (w_time (s_world s) = y_nde p /\ y_uses_cum p = false /\
    ((0 <= w_time (s_world s))%Z -> forall m A D, y_mgr p = Some m -> y_ad p = Some A -> y_dd p = Some D ->
     let t := w_time (s_world s) in let la := i_vals A (i_pos A) in let ld := i_vals D (i_pos D) in
     y_ad p' = Some (bump A) /\ y_dd p' = Some (bump D) /\ y_nae p' = (la + t)%Z /\ y_nde p' = (ld + Z.max (la + t) 1)%Z /\
     s_rows s' = s_rows s ++ [mkCyc m t "Active" la; mkCyc m (Z.max (la + t) 1) "Dormant" ld]))).
Proof.
  intros R EP H. apply requests_spec in H as [[K1 [K2 [K3 _]]] [[e [X _]]|[po [X [CK W]]]]];
    [discriminate| |assumption|discriminate].
  destruct CK as [p0 [s1 [p1 [C1 [C2 [C3 [C4 [C5 [C5' [C6 [-> C8]]]]]]]]]]].
  injection X as <-. split; [|split; [assumption|split; [assumption|split; [assumption|]]]].
  - intros NE. destruct W as [k [t [q [_ [_ [_ [am [[[_ [D _]]|[_ ->]] [[_ ->]|[L _]]]]]]]]]]; try assumption; try congruence. lra.
  - assert (ready p0) as R0 by (now apply dvals_ready with p).
    pose proof (params_inj _ _ C5) as [_ [PM [_ [_ [_ [_ [_ [_ [PC _]]]]]]]]].
    assert (y_uses_cum p0 = y_uses_cum p) as UC by (unfold y_uses_cum; now rewrite PC).
    destruct (Z.eq_dec (w_time (s_world s)) (y_nde p)) as [T|T].
    + right. destruct (y_uses_cum p) eqn:U.
      * left. apply check_cum in C6 as [-> ->]; [|assumption|now rewrite C2|now rewrite UC]. ysimp. auto 10.
      * right. split; [assumption|]. split; [reflexivity|]. intros T0 m A D M YA YD.
        pose proof (check_next _ _ _ _ m A D (eq_trans PM M) (eq_trans C3 YA) (eq_trans C4 YD) (eq_trans T (eq_sym C2)) T0 UC C6) as Y.
        cbv zeta in *. rewrite C8. exact Y.
    + left. apply check_skip in C6 as [-> ->]; [|assumption|now rewrite C2]. auto 10.
Qed.

(** ** Stepping *)
Definition wf_args (a : init_args) (mgr : Z) (i k : nat) (p : pol) : Prop := stored a mgr i k p /\ ready p.
Lemma steps_wf E eps mgr i k a t0 rows0 bc t s p tr : 0 < eps ->
  steps E eps mgr i k a t0 rows0 bc t s p tr -> wf_args a mgr i k p /\ (t0 <= t)%Z.
Proof.
  intros EP. induction 1 as [id s s' p b T R CP B BC H|t s p tr commod comp pref ST IH|t s p tr commod ST IH|t s p tr sa ports sb p1 se ST IH T R H SE|
      t s p tr sa ports sb p1 sc resps sd p2 se ST IH T R H NE T2 R2 AC ND [b [B [U BK]]] SE].
  - apply init_cfg in H as [S [RD _]]; [|assumption]. split; [split; assumption|lia].
  - exact IH.
  - exact IH.
  - destruct IH as [[S RD] L]. apply requests_cycle in H as [_ [P [D _]]]; try assumption.
    split; [|lia]. split; [now apply stored_params with p|now apply dvals_ready with p].
  - destruct IH as [[S RD] L]. apply requests_cycle in H as [_ [P [D _]]]; try assumption.
    assert (stored a mgr i k p1) as S1 by now apply stored_params with p. assert (ready p1) as RD1 by now apply dvals_ready with p.
    pose proof U as U'. apply in_use_BI in U' as [EO [RC I]].
    pose proof (accept_spec E i resps sc p1 (Ok tt) sd p2 b AC ltac:(discriminate) RD1 ltac:(apply S1) B EO RC I ND) as X.
    destruct X as [A1 [A2 _]]. split; [|lia]. split; [now apply stored_params with p1|now apply dvals_ready with p1].
Qed.
Lemma accept_plain E i resps s p s' p' mgr a k b : stored a mgr i k p -> ready p -> l_cap (limits_of a) = None ->
  y_accept E resps (s, p) = (Ok tt, (s', p')) -> nth_error (s_bufs s) i = Some b -> in_use E EMaterial (s_world s) b ->
  NoDup (map fst resps) ->
  y_nae p' = y_nae p /\ y_nde p' = y_nde p /\ y_ad p' = y_ad p /\ y_dd p' = y_dd p /\ s_rows s' = s_rows s.
Proof.
  intros S RD C AC B U ND. pose proof U as U'. apply in_use_BI in U' as [EO [RC I]].
  pose proof (accept_spec E i resps s p (Ok tt) s' p' b AC ltac:(discriminate) RD ltac:(apply S) B EO RC I ND) as X.
  destruct X as [_ [_ [A1 [_ [A2 [_ [_ [_ [_ [_ [A3 _]]]]]]]]]]].
  rewrite (stored_cum _ _ _ _ _ S), C in A3. destruct (A3 eq_refl) as [_ [A4 [A5 A6]]]. auto.
Qed.

Section Cycle.
Variables (E : env) (eps : Q) (mgr : Z) (i k : nat) (thr : Q) (sd0 : option ddist) (t0 : Z) (rows0 : list cyc_row) (bc : option Q).
Variables (act dor : nat -> Z).
Hypothesis (EP : 0 < eps) (T0 : (0 <= t0)%Z) (A1 : forall n, (1 <= act n)%Z) (D0 : forall n, (0 <= dor n)%Z).
Let a := IThroughput thr (Some (mkI act 0)) (Some (mkI dor 0)) sd0.
Let dor' n := dor (S n).
Local Notation ps := (period_start t0 act dor').
Definition tt_inv (t : Z) (s : sys) (p : pol) : Prop := exists n,
  y_ad p = Some (mkI act (S n)) /\ y_dd p = Some (mkI dor (S (S n))) /\ y_nae p = (ps n + act n)%Z /\ y_nde p = ps (S n) /\
  (ps n <= t <= ps (S n))%Z /\ (n <> 0%nat -> ps n < t)%Z /\ s_rows s = rows0 ++ period_rows mgr t0 act dor' (S n).
Lemma ps_pos n : (t0 <= ps n)%Z.
Proof. pose proof (ps_grow t0 act dor' A1 (fun m => D0 (S m)) n). lia. Qed.
Lemma period_rows_S n : period_rows mgr t0 act dor' (S n) = period_rows mgr t0 act dor' n ++
  [mkCyc mgr (ps n) "Active" (act n); mkCyc mgr (ps n + act n)%Z "Dormant" (dor' n)].
Proof. unfold period_rows. rewrite seq_S, flat_map_app. cbn [plus flat_map app]. reflexivity. Qed.
Lemma inv_dormant t s p : tt_inv t s p -> (y_dormant t p = true <-> is_dormant t0 act dor' t).
Proof.
  intros [n [_ [_ [N1 [N2 [N3 _]]]]]]. unfold y_dormant. rewrite N1, N2, andb_true_iff, Z.leb_le, Z.ltb_lt. split.
  - intros H. exists n. exact H.
  - intros [m M]. destruct (Z.eq_dec t (ps (S n))) as [->|NE].
    + exfalso. assert (m = S n) as ->; [|specialize (A1 (S n)); lia].
      apply (ps_uniq t0 act dor' A1 (fun x => D0 (S x))) with (ps (S n)).
      * specialize (A1 m). lia.
      * pose proof (ps_step t0 act dor' A1 (fun x => D0 (S x)) (S n)). lia.
    + assert (m = n) as ->; [|exact M].
      apply (ps_uniq t0 act dor' A1 (fun x => D0 (S x))) with t; [specialize (A1 m); lia|lia].
Qed.
Lemma REQ : forall t s p sa ports sb p1, tt_inv t s p -> wf_args a mgr i k p -> w_time (s_world sa) = t -> same_cycle_rows s sa ->
    y_requests eps (sa, p) = (Ok ports, (sb, p1)) -> tt_inv (t + 1) sb p1.
Proof.
  intros t s p sa ports sb p1 INV [St RD] T R H. apply requests_cycle in H as [_ [_ [_ [_ H]]]]; try assumption.
    destruct INV as [n [N1 [N2 [N3 [N4 [N5 [N6 N7]]]]]]]. unfold same_cycle_rows in R. rewrite T in H.
    destruct H as [[H1 [H2 [H3 [H4 [H5 H6]]]]]|[[_ [H1 _]]|[H1 [_ H2]]]].
    - exists n. rewrite H2, H3, H4, H5, H6, R. repeat split; try assumption; try lia.
    - rewrite (stored_cum _ _ _ _ _ St) in H1. discriminate.
    - pose proof (ps_pos (S n)). specialize (H2 ltac:(lia) mgr _ _ (proj1 St) N1 N2). cbv zeta in H2. cbn [i_vals i_pos bump] in H2.
      destruct H2 as [B1 [B2 [B3 [B4 B5]]]]. rewrite N4 in H1. rewrite H1 in *.
      exists (S n). unfold bump in *. cbn [i_vals i_pos] in *. pose proof (A1 (S n)). pose proof (D0 (S (S n))).
      assert (ps (S (S n)) = (ps (S n) + act (S n) + dor (S (S n)))%Z) as PS by reflexivity.
      set (q1 := ps (S n)) in *. set (q2 := ps (S (S n))) in *.
      rewrite (Z.max_l (act (S n) + q1) 1) in B4, B5 by lia.
      split; [assumption|]. split; [assumption|]. split; [lia|]. split; [lia|]. split; [lia|]. split; [lia|].
      rewrite B5, R, N7, (period_rows_S (S n)), <- app_assoc. do 2 f_equal. unfold dor'. subst q1.
      rewrite (Z.add_comm (act (S n))). reflexivity. 
Qed.
Lemma steps_inv t s p tr : steps E eps mgr i k a t0 rows0 bc t s p tr -> tt_inv t s p /\
  forall t' m, In (t', true, m) tr -> (t0 <= t')%Z /\ ~ is_dormant t0 act dor' t'.
Proof.
  induction 1 as [id s s' p b T R CP B BC H|t s p tr commod comp pref ST IH|t s p tr commod ST IH|t s p tr sa ports sb p1 se ST IH T R H SE|
      t s p tr sa ports sb p1 sc resps sd p2 se ST IH T R H NE T2 R2 AC ND [b [B [U BK]]] SE].
  - split; [|intros t' m []]. apply init_spec in H as [p0 [S [DS [C [NDE [_ H]]]]]]; [|assumption].
    injection DS as AD DD SD. apply init_cycle_spec with (m := mgr) in H; [|apply S]. cbv zeta in H. rewrite AD, DD in H. cbn [odef i_vals i_pos bump] in H.
    destruct H as [_ [_ [_ [_ [H1 [H2 [H3 H4]]]]]]].
    rewrite (stored_cum _ _ _ _ _ S) in H4. destruct (Z.ltb_spec (dor 0%nat) 0); [specialize (D0 0%nat); lia|]. cbn [orb a limits_of l_cap] in H4.
    rewrite NDE in H4. cbn [Z.leb] in H4. destruct (Z.leb_spec 0 0); [|lia]. destruct H4 as [H4 [H5 H6]]. rewrite T in *.
    pose proof (A1 0%nat). rewrite Z.max_l in H4, H6 by lia. exists 0%nat. unfold bump in *. cbn [i_vals i_pos] in *.
    pose proof (D0 1%nat). assert (ps 1 = (t0 + act 0%nat + dor 1%nat)%Z) as PS by reflexivity. cbn [period_start].
    split; [assumption|]. split; [assumption|]. split; [lia|]. split; [unfold dor'; lia|]. split; [unfold dor'; lia|]. split; [congruence|].
    rewrite H6, R. unfold period_rows. cbn [seq flat_map app period_start]. rewrite (Z.add_comm (act 0%nat)). reflexivity.
  - exact IH.
  - exact IH.
  - destruct IH as [INV TR]. pose proof (steps_wf _ _ _ _ _ _ _ _ _ _ _ _ _ EP ST) as [W L]. split.
    + destruct (REQ _ _ _ _ _ _ _ INV W T R H) as [n N]. exists n. unfold same_cycle_rows in SE. now rewrite SE.
    + intros t' m K. apply in_app_iff in K as [K|[K|[]]]; [eauto|]. injection K as <- K _. split; [assumption|].
      apply requests_cycle in H as [DO _]; [|apply W|assumption]. intros X. apply (inv_dormant _ _ _ INV) in X.
      rewrite T in DO. rewrite DO in X; [discriminate|]. intros ->. discriminate.
  - destruct IH as [INV TR]. pose proof (steps_wf _ _ _ _ _ _ _ _ _ _ _ _ _ EP ST) as [W L]. split.
    + pose proof H as H'. apply requests_cycle in H' as [_ [P [D _]]]; [|apply W|assumption].
      destruct W as [S RD].
      assert (stored a mgr i k p1) as S1 by now apply stored_params with p. assert (ready p1) as RD1 by now apply dvals_ready with p.
      destruct (accept_plain _ _ _ _ _ _ _ _ _ _ _ S1 RD1 eq_refl AC B U ND) as [X1 [X2 [X3 [X4 X5]]]].
      destruct (REQ _ _ _ _ _ _ _ INV (conj S RD) T R H) as [n N]. exists n. unfold same_cycle_rows in SE, R2.
      now rewrite SE, X1, X2, X3, X4, X5, R2.
    + intros t' m K. apply in_app_iff in K as [K|[K|[]]]; [eauto|]. injection K as <- _. split; [assumption|].
      apply requests_cycle in H as [DO _]; [|apply W|assumption]. intros X. apply (inv_dormant _ _ _ INV) in X.
      rewrite T in DO. rewrite DO in X; [discriminate|assumption].
Qed.
End Cycle.

Lemma timetable : forall E eps mgr i k thr sd t0 rows0 bc act dor t s p tr,
  0 < eps -> (0 <= t0)%Z -> (forall n, 1 <= act n)%Z -> (forall n, 0 <= dor n)%Z ->
  steps E eps mgr i k (IThroughput thr (Some (mkI act 0)) (Some (mkI dor 0)) sd) t0 rows0 bc t s p tr ->
  let dor' n := dor (S n) in
  (y_dormant t p = true <-> is_dormant t0 act dor' t) /\
  (forall t' m, In (t', true, m) tr -> is_active t0 act dor' t') /\
  exists n, s_rows s = rows0 ++ period_rows mgr t0 act dor' (S n) /\
    (period_start t0 act dor' n <= t <= period_start t0 act dor' (S n))%Z.
Proof.
  intros E eps mgr i k thr sd t0 rows0 bc act dor t s p tr EP T0 A1 D0 ST dor'.
  destruct (steps_inv _ _ _ _ _ _ _ _ _ _ _ _ EP T0 A1 D0 _ _ _ _ ST) as [INV TR]. split; [|split].
  - exact (inv_dormant _ _ _ _ _ A1 D0 _ _ _ INV).
  - intros t' m K. destruct (TR _ _ K) as [L ND].
    destruct (partition t0 act dor' A1 (fun n => D0 (S n)) t' L) as [[X|X] _]; [exact X|contradiction].
  - destruct INV as [n [_ [_ [_ [_ [N5 [_ N7]]]]]]]. exists n. auto.
Qed.
