(** * Resources: C02, C03, C14, C15, C35 in the user's vocabulary. *)
From Verif Require Import Base CompModel CompSpec CompProofs PackageModel PackageProofs PackageProofs2
  ResourceModel ResourceSpec ResourceProofs1 ResourceProofs2 ResourceProofs3 ResourceProofs4 ResourceProofs5.
Open Scope Q_scope.
Open Scope m_scope.



(** comp() leaves quantities, packages, ids alone. *)
Lemma mat_comp_same E i w c w' : mat_comp E i w = (Ok c, w') ->
  others_same [i] w w' /\ comps_kept w w' /\
  (forall k r, nth_error (w_res w) k = Some r -> exists r', nth_error (w_res w') k = Some r' /\
     r_qty r' = r_qty r /\ r_obj r' = r_obj r /\ r_pkg r' = r_pkg r /\ r_ctx r' = r_ctx r) /\
  exists r, nth_error (w_res w') i = Some r /\ r_qual r = QMat c.
Proof.
  intros H. apply mat_comp_phys in H as [r [cp [Hr [Eq [[e [? _]]|[c' [p' [Ec [Hp [_ Hx]]]]]]]]]]; [discriminate| |discriminate].
  inversion Ec; subst c'. assert (L := nth_error_lt _ _ _ Hr).
  split; [|split; [|split]].
  - eapply (others_upd _ _ _ _ []). rewrite app_nil_r. eauto.
  - now apply cext_kept.
  - intros k x Hk. assert (Lk := nth_error_lt _ _ _ Hk).
    destruct (Nat.eq_dec i k) as [->|Hne].
    + rewrite Hr in Hk; inversion Hk; subst x.
      assert (X : nth_error (pres w') k = Some (ph_with_prev p' (ph_with_qual (QMat c) (phys_of r)))).
      { rewrite Hp. apply nth_upd_same. rewrite pres_len; auto. }
      apply pres_nth_inv in X as [r' [X1 X2]]. exists r'. split; auto.
      pose proof (f_equal ph_qty X2). pose proof (f_equal ph_obj X2). pose proof (f_equal ph_pkg X2).
      pose proof (f_equal ph_ctx X2). auto.
    + assert (X : nth_error (pres w') k = Some (phys_of x)).
      { rewrite Hp, nth_upd_other by auto. now apply pres_nth. }
      apply pres_get in X as [x' [X1 X2]]. exists x'. split; auto. unfold looks_same in X2. tauto.
  - assert (X : nth_error (pres w') i = Some (ph_with_prev p' (ph_with_qual (QMat c) (phys_of r)))).
    { rewrite Hp. apply nth_upd_same. rewrite pres_len; auto. }
    apply pres_nth_inv in X as [r' [X1 X2]]. exists r'. split; auto. pose proof (f_equal ph_qual X2). auto.
Qed.

Lemma absorb_pair (l : list phys) i j p pj0 : i <> j -> nth_error l j = Some pj0 ->
  (let l1 := upd l i p in match nth_error l1 j with Some pj => upd l1 j (ph_with_qty 0 pj) | None => l1 end)
  = upd (upd l i p) j (ph_with_qty 0 pj0).
Proof. intros N H. cbv zeta. rewrite nth_upd_other, H by auto. reflexivity. Qed.

Lemma C02_absorb_lemma E i j w res w' : i <> j -> absorb E i j w = (res, w') -> res <> UB ->
  exists a b, nth_error (w_res w) i = Some a /\ nth_error (w_res w) j = Some b /\
  ((res = Ok tt /\ absorbed w w' i j a b) \/
   (res = Throw ValueError /\
    ((exists sa sb, r_qual a = QProd sa /\ r_qual b = QProd sb /\ sa <> sb /\ w' = w) \/
     (exists ca cb, r_qual a = QMat ca /\ r_qual b = QMat cb /\
        forall k r, nth_error (w_res w) k = Some r ->
          exists r', nth_error (w_res w') k = Some r' /\ r_qty r' = r_qty r)))).
Proof.
  intros Hij H N. pose proof H as Habs. unfold absorb in H. mrget H. mrget H. rename x into a, x0 into b.
  exists a, b. split; auto. split; auto.
  destruct (r_qual a) as [ca|sa] eqn:Ea, (r_qual b) as [cb|sb] eqn:Eb; try (inversion H; subst; congruence).
  - apply mat_absorb_phys in H as [c0 [c1 [w2 [a2 [b2 [[w1 [M1 M2]] [Ha [Hb D]]]]]]]]; auto.
    destruct (mat_comp_same _ _ _ _ _ M1) as [O1 [K1 [S1 _]]].
    destruct (mat_comp_same _ _ _ _ _ M2) as [O2 [K2 [S2 _]]].
    assert (SS : forall k r, nth_error (w_res w) k = Some r -> exists r', nth_error (w_res w2) k = Some r' /\
       r_qty r' = r_qty r /\ r_obj r' = r_obj r /\ r_pkg r' = r_pkg r /\ r_ctx r' = r_ctx r).
    { intros k r Hk. destruct (S1 k r Hk) as [r1 [Hr1 [? [? [? ?]]]]]. destruct (S2 k r1 Hr1) as [r2 [Hr2 [? [? [? ?]]]]].
      exists r2. repeat split; congruence. }
    destruct (SS i a Hn) as [a2' [Ha' [Qa [Oa [Pa Ca]]]]]. rewrite Ha in Ha'; inversion Ha'; subst a2'; clear Ha'.
    destruct (SS j b Hn0) as [b2' [Hb' [Qb [Ob [Pb Cb]]]]]. rewrite Hb in Hb'; inversion Hb'; subst b2'; clear Hb'.
    destruct D as [[x0 [x1 [_ [_ [_ [_ [-> ->]]]]]]]|[-> [q' [cs [p' [Hm [_ [Hp [Hc _]]]]]]]]].
    + right. split; auto. right. exists ca, cb. split; auto. split; auto. intros k r Hk.
      destruct (SS k r Hk) as [r' [H1 [H2 _]]]. eauto.
    + left. split; auto. rewrite (absorb_pair _ _ _ _ _ Hij (pres_nth _ _ _ Hb)) in Hp.
      assert (Li : (i < length (pres w2))%nat) by (rewrite pres_len; eapply nth_error_lt; eauto).
      assert (Lj : (j < length (pres w2))%nat) by (rewrite pres_len; eapply nth_error_lt; eauto).
      assert (Xi : nth_error (pres w') i = Some (ph_with_qty (r_qty a2 + r_qty b2) (ph_with_prev p' (ph_with_qual q' (phys_of a2))))).
      { rewrite Hp, nth_upd_other, nth_upd_same; auto. }
      assert (Xj : nth_error (pres w') j = Some (ph_with_qty 0 (phys_of b2))).
      { rewrite Hp, nth_upd_same; auto. rewrite upd_length; auto. }
      split; [|split; [|split; [|split]]].
      * apply pres_nth_inv in Xi as [r' [X1 X2]]. exists r'. split; auto.
        pose proof (f_equal ph_qty X2). pose proof (f_equal ph_obj X2). pose proof (f_equal ph_pkg X2). pose proof (f_equal ph_ctx X2).
        simpl in *. repeat split; congruence.
      * apply pres_nth_inv in Xj as [r' [X1 X2]]. exists r'. split; auto.
        pose proof (f_equal ph_qty X2). pose proof (f_equal ph_obj X2). pose proof (f_equal ph_pkg X2). pose proof (f_equal ph_ctx X2).
        simpl in *. repeat split; congruence.
      * eapply others_trans; [|eapply others_trans].
        -- eapply others_incl; [|exact O1]. simpl; intuition.
        -- eapply others_incl; [|exact O2]. simpl; intuition.
        -- eapply others_upd2; eauto.
      * eapply comps_kept_trans; [|eapply comps_kept_trans]; eauto. eapply pcomps_kept; eauto.
      * assert (T := step_total E (OAbsorb i j) w (Ok tt) w' Hij Habs ltac:(discriminate)). simpl in T. lra.
  - apply prod_absorb_phys in H as [a' [b' [sa' [sb' [Ha [Hb [Qa [Qb D]]]]]]]]; auto.
    rewrite Hn in Ha; inversion Ha; subst a'; clear Ha. rewrite Hn0 in Hb; inversion Hb; subst b'; clear Hb.
    rewrite Ea in Qa; inversion Qa; subst sa'. rewrite Eb in Qb; inversion Qb; subst sb'.
    destruct D as [[Hne [-> ->]]|[Heq [-> [Hp [R _]]]]].
    + right. split; auto. left. exists sa, sb. auto.
    + left. split; auto. rewrite (absorb_pair _ _ _ _ _ Hij (pres_nth _ _ _ Hn0)) in Hp.
      assert (Li : (i < length (pres w))%nat) by (rewrite pres_len; eapply nth_error_lt; eauto).
      assert (Lj : (j < length (pres w))%nat) by (rewrite pres_len; eapply nth_error_lt; eauto).
      assert (Xi : nth_error (pres w') i = Some (ph_with_qty (r_qty a + r_qty b) (phys_of a))).
      { rewrite Hp, nth_upd_other, nth_upd_same; auto. }
      assert (Xj : nth_error (pres w') j = Some (ph_with_qty 0 (phys_of b))).
      { rewrite Hp, nth_upd_same; auto. rewrite upd_length; auto. }
      split; [|split; [|split; [|split]]].
      * apply pres_nth_inv in Xi as [r' [X1 X2]]. exists r'. split; auto.
        pose proof (f_equal ph_qty X2). pose proof (f_equal ph_obj X2). pose proof (f_equal ph_pkg X2). pose proof (f_equal ph_ctx X2).
        simpl in *. repeat split; congruence.
      * apply pres_nth_inv in Xj as [r' [X1 X2]]. exists r'. split; auto.
        pose proof (f_equal ph_qty X2). pose proof (f_equal ph_obj X2). pose proof (f_equal ph_pkg X2). pose proof (f_equal ph_ctx X2).
        simpl in *. repeat split; congruence.
      * eapply others_upd2; eauto.
      * now apply rest_kept.
      * assert (T := step_total E (OAbsorb i j) w (Ok tt) w' Hij Habs ltac:(discriminate)). simpl in T. lra.
Qed.

(** Products never change composition; the quality of the absorber stays. *)
Lemma C02_product_quality_lemma E i j w w' a s : absorb E i j w = (Ok tt, w') ->
  nth_error (w_res w) i = Some a -> r_qual a = QProd s ->
  exists a', nth_error (w_res w') i = Some a' /\ r_qual a' = QProd s.
Proof.
  intros H Ha Ea. assert (N : @Ok unit tt <> UB) by discriminate. unfold absorb in H. mrget H. mrget H.
  rewrite Ha in Hn; inversion Hn; subst x. rewrite Ea in H. destruct (r_qual x0) eqn:Eb; [discriminate|].
  apply prod_absorb_phys in H as [a' [b' [sa' [sb' [Ha' [Hb [Qa [Qb [[_ [? _]]|[_ [_ [Hp _]]]]]]]]]]]]; auto; [discriminate|].
  rewrite Ha in Ha'; inversion Ha'; subst a'. cbv zeta in Hp.
  assert (L : (i < length (pres w))%nat) by (rewrite pres_len; eapply nth_error_lt; eauto).
  assert (X : exists p, nth_error (pres w') i = Some p /\ ph_qual p = QProd s).
  { rewrite Hp. destruct (Nat.eq_dec i j) as [<-|Hne].
    - rewrite nth_upd_same by auto. rewrite nth_upd_same by (rewrite upd_length; auto). eexists. split; [reflexivity|]. exact Ea.
    - rewrite nth_upd_other by auto. destruct (nth_error (pres w) j).
      + rewrite nth_upd_other, nth_upd_same by auto. eexists. split; [reflexivity|]. exact Ea.
      + rewrite nth_upd_same by auto. eexists. split; [reflexivity|]. exact Ea. }
  destruct X as [p [X1 X2]]. apply pres_nth_inv in X1 as [r' [Y1 Y2]]. exists r'. split; auto. subst p. exact X2.
Qed.

Lemma self_absorb_lemma E i w w' : absorb E i i w = (Ok tt, w') ->
  exists r', nth_error (w_res w') i = Some r' /\ r_qty r' = 0.
Proof.
  intros H. assert (N : @Ok unit tt <> UB) by discriminate. unfold absorb in H. mrget H. mrget H.
  rewrite Hn in Hn0; inversion Hn0; subst x0; clear Hn0.
  assert (F : forall l p, (i < length l)%nat -> pres w' =
     (let l1 := upd l i p in match nth_error l1 i with Some pj => upd l1 i (ph_with_qty 0 pj) | None => l1 end) ->
     exists r', nth_error (w_res w') i = Some r' /\ r_qty r' = 0).
  { intros l p Hl Hp. cbv zeta in Hp. rewrite nth_upd_same in Hp by auto.
    assert (X : nth_error (pres w') i = Some (ph_with_qty 0 p)).
    { rewrite Hp. apply nth_upd_same. rewrite upd_length; auto. }
    apply pres_nth_inv in X as [r' [Y1 Y2]]. exists r'. split; auto. apply (f_equal ph_qty) in Y2. exact Y2. }
  destruct (r_qual x) eqn:Ex.
  - apply mat_absorb_phys in H as [c0 [c1 [w2 [a [b [[w1 [M1 M2]] [Ha [Hb D]]]]]]]]; auto.
    destruct D as [[x0 [x1 [_ [_ [_ [_ [? _]]]]]]]|[_ [q' [cs [p' [_ [_ [Hp _]]]]]]]]; [discriminate|].
    eapply F; [|exact Hp]. rewrite pres_len. eapply nth_error_lt; eauto.
  - apply prod_absorb_phys in H as [a [b [sa [sb [Ha [Hb [_ [_ [[_ [? _]]|[_ [_ [Hp _]]]]]]]]]]]]; auto; [discriminate|].
    eapply F; [|exact Hp]. rewrite pres_len. eapply nth_error_lt; eauto.
Qed.

(** Mixing materials of non-negative quantity never throws. *)
Lemma normalize_nonneg v x : Forall (fun p : Z * Q => 0 <= snd p) v -> 0 <= x -> Forall (fun p : Z * Q => 0 <= snd p) (normalize v x).
Proof.
  intros H Hx. unfold normalize. destruct (_ && _) eqn:Ec; auto.
  rewrite Forall_map. eapply Forall_impl; [|exact H]. simpl. intros [k y] Hy. simpl in *.
  pose proof (total_nonneg _ H). pose proof (comp_sum_total v).
  apply andb_prop in Ec as [_ Ec]. destruct (Qeqb_spec (comp_sum v) 0); [discriminate|].
  assert (0 < comp_sum v) by lra. apply Qmult_le_0_compat; auto.
  apply Qle_shift_div_l; auto. lra.
Qed.

Lemma mix_acceptable E x0 x1 Q0 Q1 : good_vec E (comp_mass E x0) -> good_vec E (comp_mass E x1) -> 0 <= Q0 -> 0 <= Q1 ->
  acceptable E (comp_add (normalize (comp_mass E x0) Q0) (normalize (comp_mass E x1) Q1)).
Proof.
  intros G0 G1 H0 H1. apply good_acceptable. 
  assert (W : wf_comp (comp_add (normalize (comp_mass E x0) Q0) (normalize (comp_mass E x1) Q1))).
  { apply comp_add_wf, normalize_wf. apply G0. }
  split; [auto|]. apply Forall_forall. intros [n x] Hx. simpl. split.
  - assert (Hk : In n (zkeys (comp_add (normalize (comp_mass E x0) Q0) (normalize (comp_mass E x1) Q1)))).
    { apply in_map_iff. exists (n, x). auto. }
    apply comp_add_keys in Hk. rewrite !normalize_keys in Hk. destruct Hk; [apply (good_keys _ _ G0)|apply (good_keys _ _ G1)]; auto.
  - rewrite <- (amount_In _ _ _ W Hx). rewrite comp_add_amount by (apply normalize_wf; apply G1).
    assert (0 <= amount n (normalize (comp_mass E x0) Q0)) by (apply amount_nonneg, normalize_nonneg; auto; eapply good_nonneg; eauto).
    assert (0 <= amount n (normalize (comp_mass E x1) Q1)) by (apply amount_nonneg, normalize_nonneg; auto; eapply good_nonneg; eauto).
    lra.
Qed.

Lemma C02_mix_never_throws_lemma E i j w e w' a b ca cb : env_ok E -> reachable E w ->
  nth_error (w_res w) i = Some a -> nth_error (w_res w) j = Some b ->
  r_qual a = QMat ca -> r_qual b = QMat cb -> 0 <= r_qty a -> 0 <= r_qty b ->
  absorb E i j w <> (Throw e, w').
Proof.
  intros HE HR Ha Hb Ea Eb Qa Qb H. pose proof (reachable_WF _ _ HE HR) as HW.
  assert (N : @Throw unit e <> UB) by discriminate. unfold absorb in H. mrget H. mrget H.
  rewrite Ha in Hn; inversion Hn; subst x. rewrite Hb in Hn0; inversion Hn0; subst x0. rewrite Ea, Eb in H.
  apply mat_absorb_phys in H as [c0 [c1 [w2 [a2 [b2 [[w1 [M1 M2]] [Ha2 [Hb2 D]]]]]]]]; auto.
  assert (W1 : WF E w1) by (eapply mat_comp_WF; eauto; discriminate).
  assert (W2 : WF E w2) by (eapply mat_comp_WF; eauto; discriminate).
  destruct (mat_comp_same _ _ _ _ _ M1) as [_ [_ [S1 _]]]. destruct (mat_comp_same _ _ _ _ _ M2) as [_ [_ [S2 _]]].
  destruct (S1 _ _ Ha) as [a1 [Ha1 [Qa1 _]]]. destruct (S2 _ _ Ha1) as [a2' [Ha2' [Qa2 _]]].
  destruct (S1 _ _ Hb) as [b1 [Hb1 [Qb1 _]]]. destruct (S2 _ _ Hb1) as [b2' [Hb2' [Qb2 _]]].
  rewrite Ha2 in Ha2'; inversion Ha2'; subst a2'. rewrite Hb2 in Hb2'; inversion Hb2'; subst b2'.
  destruct D as [[x0 [x1 [_ [X0 [X1 [Na _]]]]]]|[? _]]; [|discriminate].
  apply Na. apply mix_acceptable.
  - eapply wf_cmp_nth; eauto.
  - eapply wf_cmp_nth; eauto.
  - rewrite Qa2, Qa1. auto.
  - rewrite Qb2, Qb1. auto.
Qed.

(** ** C03 *)
Lemma nuc_mass_eq E w r c x n : r_qual r = QMat c -> nth_error (w_comps w) c = Some x ->
  nuc_mass E w r n = r_qty r * frac n (comp_mass E x).
Proof. unfold nuc_mass. intros -> ->. reflexivity. Qed.

Lemma comp_mass_kept E w w' c x : comps_kept w w' -> nth_error (w_comps w) c = Some x ->
  exists x', nth_error (w_comps w') c = Some x' /\ comp_mass E x' = comp_mass E x.
Proof.
  intros K H. destruct (K c x H) as [x' [H' [_ [Ea Em]]]]. exists x'. split; auto. unfold comp_mass. now rewrite Ea, Em.
Qed.

Lemma pcomps_nth_new w w' cs t : pcomps w' = pcomps w ++ t :: cs -> exists x, nth_error (w_comps w') (length (w_comps w)) = Some x /\ cphys_of x = t.
Proof.
  intros H. assert (X : nth_error (pcomps w') (length (w_comps w)) = Some t).
  { rewrite H, nth_error_app2 by (rewrite pcomps_len; auto). rewrite pcomps_len, Nat.sub_diag. reflexivity. }
  unfold pcomps in X. rewrite nth_error_map in X. destruct (nth_error (w_comps w') (length (w_comps w))) as [x|]; [|discriminate].
  exists x. split; auto. cbn [option_map] in X. congruence.
Qed.

Lemma new_comp_mass E w w' cs k v p l : pcomps w' = pcomps w ++ (k, [], v, p, l) :: cs ->
  exists x, nth_error (w_comps w') (length (w_comps w)) = Some x /\ comp_mass E x = v.
Proof.
  intros H. apply pcomps_nth_new in H as [x [H1 H2]]. exists x. split; auto.
  rewrite <- cp_mass_of, H2. unfold cp_mass. destruct v; reflexivity.
Qed.

Lemma frac_zero_total n v : total v == 0 -> frac n v == 0.
Proof. intros H. unfold frac, Qdiv. rewrite H. change (/ 0) with 0. lra. Qed.

Lemma mix_frac v0 v1 q0 q1 n : wf_comp v0 -> wf_comp v1 ->
  Forall (fun p : Z * Q => 0 <= snd p) v0 -> Forall (fun p : Z * Q => 0 <= snd p) v1 ->
  0 < total v0 -> 0 < total v1 -> 0 <= q0 -> 0 <= q1 ->
  (q0 + q1) * frac n (comp_add (normalize v0 q0) (normalize v1 q1)) == q0 * frac n v0 + q1 * frac n v1.
Proof.
  intros W0 W1 N0 N1 T0 T1 P0 P1.
  assert (T : total (comp_add (normalize v0 q0) (normalize v1 q1)) == q0 + q1).
  { rewrite total_comp_add by (apply normalize_wf; auto). rewrite !normalize_total by lra. lra. }
  assert (A : amount n (comp_add (normalize v0 q0) (normalize v1 q1)) == q0 * frac n v0 + q1 * frac n v1).
  { rewrite comp_add_amount by (apply normalize_wf; auto). rewrite !normalize_frac by auto. lra. }
  destruct (Qeq_dec (q0 + q1) 0) as [Z|Z].
  - assert (Z0 : q0 == 0) by lra. assert (Z1 : q1 == 0) by lra. rewrite Z.
    assert (q0 * frac n v0 == 0) by (rewrite Z0; lra). assert (q1 * frac n v1 == 0) by (rewrite Z1; lra). lra.
  - unfold frac at 1. rewrite T, A. field. auto.
Qed.

(** Masses in the state in which the compositions have been read (after lazy decay, if any). *)
Lemma C03_mix_lemma E i j w w' : env_ok E -> reachable E w -> i <> j ->
  absorb E i j w = (Ok tt, w') ->
  (exists a ca, nth_error (w_res w) i = Some a /\ r_qual a = QMat ca) ->
  exists c0 c1 w1 w2 a b x0 x1,
    mat_comp E i w = (Ok c0, w1) /\ mat_comp E j w1 = (Ok c1, w2) /\
    nth_error (w_res w2) i = Some a /\ nth_error (w_res w2) j = Some b /\ r_qual a = QMat c0 /\ r_qual b = QMat c1 /\
    nth_error (w_comps w2) c0 = Some x0 /\ nth_error (w_comps w2) c1 = Some x1 /\
    (0 < total (comp_mass E x0) -> 0 < total (comp_mass E x1) -> 0 <= r_qty a -> 0 <= r_qty b ->
     exists a', nth_error (w_res w') i = Some a' /\
       forall n, nuc_mass E w' a' n == nuc_mass E w2 a n + nuc_mass E w2 b n).
Proof.
  intros HE HR Hij H [a0 [ca [Ha0 Ea0]]]. pose proof (reachable_WF _ _ HE HR) as HW.
  assert (N : @Ok unit tt <> UB) by discriminate. unfold absorb in H. mrget H. mrget H.
  rewrite Ha0 in Hn; inversion Hn; subst x; clear Hn. rewrite Ea0 in H. destruct (r_qual x0) as [cb|] eqn:Eb; [|discriminate].
  apply mat_absorb_phys in H as [c0 [c1 [w2 [a [b [[w1 [M1 M2]] [Ha [Hb D]]]]]]]]; auto.
  assert (W1 : WF E w1) by (eapply mat_comp_WF; eauto; discriminate).
  assert (W2 : WF E w2) by (eapply mat_comp_WF; eauto; discriminate).
  destruct D as [[y0 [y1 [_ [_ [_ [_ [? _]]]]]]]|[_ [q' [cs [p' [Hm [_ [Hp [Hc _]]]]]]]]]; [discriminate|].
  destruct (mat_comp_same _ _ _ _ _ M1) as [_ [K1 [_ [r1 [Hr1 Q1]]]]].
  destruct (mat_comp_same _ _ _ _ _ M2) as [O2 [K2 [_ [r2 [Hr2 Q2]]]]].
  rewrite Hb in Hr2; inversion Hr2; subst r2; clear Hr2.
  destruct (O2 i r1 ltac:(simpl; intuition) Hr1) as [a2 [Ha2 L2]]. rewrite Ha in Ha2; inversion Ha2; subst a2; clear Ha2.
  assert (Qa : r_qual a = QMat c0) by (destruct L2 as [L2 _]; congruence).
  assert (V0 : exists y0, nth_error (w_comps w2) c0 = Some y0).
  { destruct (WF_ptr_nth _ _ _ _ W2 Ha) as [_ P]. specialize (P c0 Qa). rewrite pcomps_len in P.
    apply nth_error_Some in P. destruct (nth_error (w_comps w2) c0); [eauto|congruence]. }
  assert (V1 : exists y1, nth_error (w_comps w2) c1 = Some y1).
  { destruct (WF_ptr_nth _ _ _ _ W2 Hb) as [_ P]. specialize (P c1 Q2). rewrite pcomps_len in P.
    apply nth_error_Some in P. destruct (nth_error (w_comps w2) c1); [eauto|congruence]. }
  destruct V0 as [y0 V0]. destruct V1 as [y1 V1].
  exists c0, c1, w1, w2, a, b, y0, y1. repeat (split; [assumption|]).
  intros T0 T1 P0 P1.
  rewrite (absorb_pair _ _ _ _ _ Hij (pres_nth _ _ _ Hb)) in Hp.
  assert (Xi : nth_error (pres w') i = Some (ph_with_qty (r_qty a + r_qty b) (ph_with_prev p' (ph_with_qual q' (phys_of a))))).
  { rewrite Hp, nth_upd_other, nth_upd_same; auto. rewrite pres_len. eapply nth_error_lt; eauto. }
  apply pres_nth_inv in Xi as [a' [Y1 Y2]]. exists a'. split; auto. intros n.
  pose proof (f_equal ph_qty Y2) as Zq. pose proof (f_equal ph_qual Y2) as Zl. simpl in Zq, Zl.
  rewrite (nuc_mass_eq _ _ _ _ _ _ Qa V0), (nuc_mass_eq _ _ _ _ _ _ Q2 V1).
  destruct (wf_cmp_nth _ _ _ _ W2 V0) as [G0 _]. destruct (wf_cmp_nth _ _ _ _ W2 V1) as [G1 _].
  inversion Hm as [Heq Eq' Ecs|z0 z1 v Hne Z0 Z1 Ev Acc Eq' Ecs]; rewrite <- Eq' in Zl; rewrite <- Ecs in Hc.
  - subst c1. rewrite V0 in V1; inversion V1; subst y1.
    destruct (comp_mass_kept E w2 w' c0 y0 (pcomps_kept _ _ _ Hc) V0) as [y' [V' E']].
    rewrite (nuc_mass_eq _ _ _ _ _ _ Zl V') by auto. rewrite Zq, E'. ring.
  - rewrite Z0 in V0; inversion V0; subst z0. rewrite Z1 in V1; inversion V1; subst z1.
    apply (new_comp_mass E) in Hc as [xn [Xn En]].
    rewrite (nuc_mass_eq _ _ _ _ _ _ Zl Xn). rewrite Zq, En, Ev.
    apply mix_frac; auto; try apply G0; try apply G1; eapply good_nonneg; eauto.
Qed.

(** Without lazy decay the compositions read are those of the state before the call. *)
Lemma C03_mix_no_decay_lemma E i j w w' a b ca cb x0 x1 : env_ok E -> reachable E w -> i <> j ->
  e_decay E <> "lazy"%string ->
  nth_error (w_res w) i = Some a -> nth_error (w_res w) j = Some b -> r_qual a = QMat ca -> r_qual b = QMat cb ->
  nth_error (w_comps w) ca = Some x0 -> nth_error (w_comps w) cb = Some x1 ->
  0 < total (comp_mass E x0) -> 0 < total (comp_mass E x1) -> 0 <= r_qty a -> 0 <= r_qty b ->
  absorb E i j w = (Ok tt, w') ->
  exists a', nth_error (w_res w') i = Some a' /\ forall n, nuc_mass E w' a' n == nuc_mass E w a n + nuc_mass E w b n.
Proof.
  intros HE HR Hij Hd Ha Hb Ea Eb X0 X1 T0 T1 P0 P1 H.
  destruct (C03_mix_lemma E i j w w' HE HR Hij H ltac:(eauto)) as [c0 [c1 [w1 [w2 [a2 [b2 [y0 [y1 [M1 [M2 [A [B [C [D [F [G K]]]]]]]]]]]]]]]].
  pose proof (mat_comp_phys _ _ _ _ _ M1 ltac:(discriminate)) as [r [cp [Hr [Eq [[e [? _]]|[c' [p' [Ec [Hp [Hx _]]]]]]]]]]; [discriminate|].
  destruct (Hx (or_introl Hd)) as [-> [-> _]].
  pose proof (mat_comp_phys _ _ _ _ _ M2 ltac:(discriminate)) as [r2 [cp2 [Hr2 [Eq2 [[e [? _]]|[c2' [p2' [Ec2 [Hp2 [Hx2 _]]]]]]]]]]; [discriminate|].
  destruct (Hx2 (or_introl Hd)) as [-> [-> _]].
  inversion Ec; inversion Ec2; subst.
  rewrite Ha in A; inversion A; subst a2. rewrite Hb in B; inversion B; subst b2.
  rewrite Ea in C; inversion C; subst. rewrite Eb in D; inversion D; subst.
  rewrite X0 in F; inversion F; subst. rewrite X1 in G; inversion G; subst. auto.
Qed.

(** ExtractComp: per-nuclide balance. *)
Lemma C03_extract_lemma E i q c t w w' k : env_ok E -> reachable E w ->
  mat_extract_comp E i q c t w = (Ok k, w') ->
  exists r cp x0 r',
    nth_error (w_res w) i = Some r /\ r_qual r = QMat cp /\ nth_error (w_comps w) cp = Some x0 /\
    nth_error (w_res w') i = Some r' /\
    forall x1, nth_error (w_comps w) c = Some x1 -> 0 < total (comp_mass E x0) -> 0 < total (comp_mass E x1) ->
     (t == 0 -> forall n, nuc_mass E w' r' n == nuc_mass E w r n - q * frac n (comp_mass E x1)) /\
     (cp <> c -> exists cn xn, r_qual r' = QMat cn /\ nth_error (w_comps w') cn = Some xn /\
        forall n, absq (nuc_mass E w r n - q * frac n (comp_mass E x1) - amount n (comp_mass E xn)) <= t).
Proof.
  intros HE HR H. pose proof (reachable_WF _ _ HE HR) as HW.
  apply extract_comp_phys in H as [r [cp [Hr [Eq D]]]]; [|discriminate].
  destruct D as [[_ [? _]]|[[_ [_ [? _]]]|[A [_ [q' [cs [Hrest [Hp [Hc _]]]]]]]]]; try discriminate.
  assert (V0 : exists y0, nth_error (w_comps w) cp = Some y0).
  { destruct (WF_ptr_nth _ _ _ _ HW Hr) as [_ P]. specialize (P cp Eq). rewrite pcomps_len in P.
    apply nth_error_Some in P. destruct (nth_error (w_comps w) cp); [eauto|congruence]. }
  destruct V0 as [x0 V0].
  assert (Xi : nth_error (pres w') i = Some (ph_with_qty (r_qty r - q) (ph_with_qual q' (phys_of r)))).
  { rewrite Hp, nth_error_app1, nth_upd_same; auto; rewrite ?upd_length, pres_len; eapply nth_error_lt; eauto. }
  apply pres_nth_inv in Xi as [r' [Y1 Y2]]. exists r, cp, x0, r'. repeat (split; [assumption|]).
  pose proof (f_equal ph_qty Y2) as Zq. pose proof (f_equal ph_qual Y2) as Zl. simpl in Zq, Zl.
  intros x1 V1 T0 T1.
  destruct (wf_cmp_nth _ _ _ _ HW V0) as [G0 _]. destruct (wf_cmp_nth _ _ _ _ HW V1) as [G1 _].
  assert (Mr : forall n, nuc_mass E w r n = r_qty r * frac n (comp_mass E x0)) by (intros; now apply nuc_mass_eq with cp).
  inversion Hrest as [Heq Eq' Ecs|y0 y1 v Hne H0 H1 D1 D2 Eq' Ecs]; rewrite <- Eq' in Zl; rewrite <- Ecs in Hc.
  - subst c. rewrite V0 in V1; inversion V1; subst x1. split; [|congruence]. intros _ n.
    destruct (comp_mass_kept E w w' cp x0 (pcomps_kept _ _ _ Hc) V0) as [y' [V' E']].
    rewrite (nuc_mass_eq E w' r' cp y') by auto. rewrite Mr, Zq, E'. ring.
  - rewrite V0 in H0; inversion H0; subst y0. rewrite V1 in H1; inversion H1; subst y1.
    apply (new_comp_mass E) in Hc as [xn [Xn En]].
    pose proof (extract_rest_wf _ _ _ _ _ _ _ (proj1 G0) D1) as Wv.
    set (u := comp_sub (normalize (comp_mass E x0) (r_qty r)) (normalize (comp_mass E x1) q)).
    assert (Wu : wf_comp u) by (apply comp_sub_wf, normalize_wf; apply G0).
    assert (Hu : forall n, amount n u == remainder (r_qty r) (comp_mass E x0) q (comp_mass E x1) n) by (intros; now apply extract_rest_amount).
    assert (Hd : forall n, absq (amount n u - amount n v) <= t) by (intros; now apply apply_threshold_amount).
    split.
    + intros Ht n. rewrite (nuc_mass_eq E w' r' _ xn _ Zl Xn). rewrite Mr, Zq, En.
      assert (Hv : forall m, amount m v == remainder (r_qty r) (comp_mass E x0) q (comp_mass E x1) m).
      { intros m. specialize (Hd m). rewrite Ht in Hd. rewrite <- Hu. unfold absq in Hd.
        destruct (Qlt_le_dec (amount m u - amount m v) 0) as [L|L]; [rewrite Qabs_neg in Hd by lra|rewrite Qabs_pos in Hd by lra]; lra. }
      assert (Tv : total v == r_qty r - q).
      { transitivity (total u). 
        - eapply apply_threshold_total; eauto.
        - unfold u. rewrite total_comp_sub by (apply normalize_wf; first [apply G0|apply G1]). rewrite !normalize_total by lra. lra. }
      destruct (Qeq_dec (r_qty r - q) 0) as [Z|Z].
      * assert (Av : amount n v == 0).
        { apply total_zero_amounts; [|lra]. apply acceptable_good in D2; auto. eapply good_nonneg; eauto. }
        rewrite Z. specialize (Hv n). unfold remainder in Hv. lra.
      * unfold frac at 1. rewrite Tv, Hv. unfold remainder. field. auto.
    + intros _. eexists _, xn. split; [exact Zl|]. split; [auto|]. intros n. rewrite Mr, En.
      specialize (Hd n). unfold absq in *. rewrite Hu in Hd. exact Hd.
Qed.
