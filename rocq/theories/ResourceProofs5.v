(** * Resources: C01-C03, C14, C15 in the user's vocabulary. *)
From Verif Require Import Base CompModel CompSpec CompProofs PackageModel PackageProofs PackageProofs2
  ResourceModel ResourceSpec ResourceProofs1 ResourceProofs2 ResourceProofs3 ResourceProofs4.
Open Scope Q_scope.
Open Scope m_scope.

Lemma phys_looks r r' : phys_of r' = phys_of r -> looks_same r r'.
Proof.
  intros H. unfold looks_same.
  pose proof (f_equal ph_qual H). pose proof (f_equal ph_qty H). pose proof (f_equal ph_pkg H).
  pose proof (f_equal ph_obj H). pose proof (f_equal ph_ctx H). pose proof (f_equal ph_prev H). simpl in *. auto 7.
Qed.
Lemma pres_get w i r : nth_error (pres w) i = Some (phys_of r) -> exists r', nth_error (w_res w) i = Some r' /\ looks_same r r'.
Proof. intros H. apply pres_nth_inv in H as [r' [H1 H2]]. exists r'. split; auto. now apply phys_looks. Qed.

Lemma pcomps_kept w w' cs : pcomps w' = pcomps w ++ cs -> comps_kept w w'.
Proof.
  intros H c x Hc. assert (L := nth_error_lt _ _ _ Hc).
  assert (X : nth_error (pcomps w') c = Some (cphys_of x)).
  { rewrite H, nth_error_app1 by (rewrite pcomps_len; auto). unfold pcomps. rewrite nth_error_map, Hc. reflexivity. }
  unfold pcomps in X. rewrite nth_error_map in X. destruct (nth_error (w_comps w') c) as [x'|]; [|discriminate].
  exists x'. cbn [option_map] in X. unfold cphys_of in X. injection X as A B C D F. auto.
Qed.
Lemma cext_kept w w' : cext w w' -> comps_kept w w'.
Proof. intros [[cs [H _]] _ _ _]. eapply pcomps_kept; eauto. Qed.
Lemma rest_kept w w' : rest_same_w w w' -> comps_kept w w'.
Proof. intros [H _ _ _]. eapply (pcomps_kept _ _ []). rewrite app_nil_r. auto. Qed.

Lemma others_upd w w' i p tl : pres w' = upd (pres w) i p ++ tl -> others_same [i] w w'.
Proof.
  intros H k r Hk Hr. apply pres_get. rewrite H, nth_error_app1, nth_upd_other.
  - now apply pres_nth.
  - simpl in Hk. intuition.
  - rewrite upd_length, pres_len. eapply nth_error_lt; eauto.
Qed.
Lemma others_upd2 w w' i j p q : pres w' = upd (upd (pres w) i p) j q -> others_same [i; j] w w'.
Proof.
  intros H k r Hk Hr. apply pres_get. simpl in Hk. rewrite H, !nth_upd_other by intuition. now apply pres_nth.
Qed.
Lemma others_same_refl l w : others_same l w w.
Proof. intros k r _ Hr. exists r. unfold looks_same. auto 10. Qed.
Lemma comps_kept_refl w : comps_kept w w.
Proof. intros c x Hc. exists x. auto. Qed.
Lemma others_trans l w1 w2 w3 : others_same l w1 w2 -> others_same l w2 w3 -> others_same l w1 w3.
Proof.
  intros A B k r Hk Hr. destruct (A k r Hk Hr) as [r2 [H2 L2]]. destruct (B k r2 Hk H2) as [r3 [H3 L3]].
  exists r3. split; auto. unfold looks_same in *. intuition congruence.
Qed.
Lemma others_incl l l' w w' : (forall k, In k l -> In k l') -> others_same l w w' -> others_same l' w w'.
Proof. intros I A k r Hk Hr. apply A; auto. Qed.
Lemma comps_kept_trans w1 w2 w3 : comps_kept w1 w2 -> comps_kept w2 w3 -> comps_kept w1 w3.
Proof.
  intros A B c x H. destruct (A c x H) as [x2 [K2 [? [? ?]]]]. destruct (B c x2 K2) as [x3 [K3 [? [? ?]]]].
  exists x3. repeat split; congruence.
Qed.



Lemma extracted_intro w w' i r q nq res p n :
  nth_error (w_res w) i = Some r -> res = Ok (length (w_res w)) -> pres w' = upd (pres w) i p ++ [n] ->
  ph_qty p = r_qty r - q -> ph_pkg p = r_pkg r -> ph_obj p = r_obj r -> ph_ctx p = r_ctx r ->
  ph_qty n = q -> ph_qual n = nq -> ph_ctx n = r_ctx r -> comps_kept w w' -> extracted w w' i r q nq res.
Proof.
  intros Hr Hres Hp P1 P2 P3 P4 N1 N2 N3 K. assert (L := nth_error_lt _ _ _ Hr).
  split; [auto|]. split; [|split; [|split; [|split]]].
  - rewrite <- !pres_len, Hp, app_length, upd_length. simpl. lia.
  - assert (X : nth_error (pres w') i = Some p).
    { rewrite Hp, nth_error_app1 by (rewrite upd_length, pres_len; auto). apply nth_upd_same. rewrite pres_len; auto. }
    apply pres_nth_inv in X as [r' [X1 X2]]. exists r'. subst p. auto.
  - assert (X : nth_error (pres w') (length (w_res w)) = Some n).
    { rewrite Hp, <- pres_len. replace (length (pres w)) with (length (upd (pres w) i p)) at 1 by apply upd_length.
      rewrite nth_app_new. auto. }
    apply pres_nth_inv in X as [r' [X1 X2]]. exists r'. subst n. auto.
  - eapply others_upd; eauto.
  - auto.
Qed.

Lemma C01_extract_lemma E i q w res w' : extract_res E i q w = (res, w') -> res <> UB ->
  exists r, nth_error (w_res w) i = Some r /\
  ((r_qty r < q /\ res = Throw ValueError /\ w' = w) \/
   (q <= r_qty r /\ extracted w w' i r q (r_qual r) res /\
    exists r', nth_error (w_res w') i = Some r' /\ looks_same (with_qty (r_qty r - q) r) r')).
Proof.
  intros H N. unfold extract_res in H. mrget H. rename x into r. exists r. split; auto.
  assert (L := nth_error_lt _ _ _ Hn).
  assert (Z : forall n, pres w' = upd (pres w) i (ph_with_qty (r_qty r - q) (phys_of r)) ++ [n] ->
     exists r', nth_error (w_res w') i = Some r' /\ looks_same (with_qty (r_qty r - q) r) r').
  { intros n Hp. apply pres_get. rewrite Hp, nth_error_app1 by (rewrite upd_length, pres_len; auto).
    rewrite nth_upd_same by (rewrite pres_len; auto). reflexivity. }
  destruct (r_qual r) eqn:Eq.
  - apply extract_qty_phys in H as [r2 [cp [Hr [Eq' D]]]]; auto. rewrite Hn in Hr; inversion Hr; subst r2; clear Hr.
    destruct D as [D|[Hq [Hres [Hp [R _]]]]]; [left; auto|]. right. split; auto. split; [|eapply Z; eauto].
    eapply extracted_intro; eauto. now apply rest_kept.
  - apply prod_extract_phys in H as [r2 [cp [Hr [Eq' D]]]]; auto. rewrite Hn in Hr; inversion Hr; subst r2; clear Hr.
    destruct D as [D|[Hq [Hres [Hp [R _]]]]]; [left; auto|]. right. split; auto. split; [|eapply Z; eauto].
    eapply extracted_intro; eauto. now apply rest_kept.
Qed.

(** amount of the normalised vector *)
Lemma good_nonneg E v : good_vec E v -> Forall (fun p => 0 <= snd p) v.
Proof. intros [_ H]. eapply Forall_impl; [|exact H]. simpl. tauto. Qed.
Lemma total_zero_amounts v n : Forall (fun p : Z * Q => 0 <= snd p) v -> total v == 0 -> amount n v == 0.
Proof.
  intros H. unfold total, amount. induction H as [|[k x] t H0 Ht IH]; simpl; intros Hz; [lra|].
  simpl in H0. assert (0 <= qsum (map snd t)). { clear - Ht. induction Ht; simpl; lra. }
  destruct (n =? k)%Z; [lra|apply IH; lra].
Qed.
Lemma total_nonneg v : Forall (fun p : Z * Q => 0 <= snd p) v -> 0 <= total v.
Proof. unfold total. induction 1; simpl; lra. Qed.
Lemma amount_nonneg v n : Forall (fun p : Z * Q => 0 <= snd p) v -> 0 <= amount n v.
Proof. unfold amount. induction 1 as [|[k x] t H0 Ht IH]; simpl; [lra|]. destruct (n =? k)%Z; auto. Qed.

Lemma normalize_frac v x n : Forall (fun p : Z * Q => 0 <= snd p) v -> amount n (normalize v x) == x * frac n v.
Proof.
  intros H. destruct (Qeq_dec (total v) 0) as [Z|Z].
  - rewrite (normalize_zero _ _ Z). unfold frac. rewrite (total_zero_amounts _ _ H Z). unfold Qdiv. lra.
  - rewrite normalize_amount by auto. unfold frac. field. auto.
Qed.

Lemma amount_In n x (v : compmap) : wf_comp v -> In (n, x) v -> amount n v = x.
Proof.
  unfold amount, wf_comp. induction v as [|[k y] t IH]; simpl; intros H Hi; [contradiction|]. destruct H as [H1 H2].
  destruct Hi as [Hi|Hi].
  - inversion Hi; subst. rewrite Z.eqb_refl. auto.
  - destruct (Z.eqb_spec n k); [|auto]. subst. rewrite Forall_forall in H1. apply H1 in Hi. simpl in Hi. lia.
Qed.

(** Per-nuclide remainder of ExtractComp. *)
Definition remainder (Q0 : Q) (v0 : compmap) (q : Q) (v1 : compmap) (n : Z) : Q := Q0 * frac n v0 - q * frac n v1.

Lemma extract_rest_amount E c0 c1 Q0 q n : good_vec E (comp_mass E c0) -> good_vec E (comp_mass E c1) ->
  amount n (comp_sub (normalize (comp_mass E c0) Q0) (normalize (comp_mass E c1) q)) ==
  remainder Q0 (comp_mass E c0) q (comp_mass E c1) n.
Proof.
  intros G0 G1. rewrite comp_sub_amount by (apply normalize_wf; apply G1).
  unfold remainder. rewrite !normalize_frac by (eapply good_nonneg; eauto). lra.
Qed.

Lemma valid_keys f (v : compmap) : valid_nucs f v = true <-> (forall n, In n (zkeys v) -> f n = true).
Proof.
  unfold valid_nucs, zkeys. rewrite forallb_forall. split.
  - intros H n Hn. apply in_map_iff in Hn as [p [<- Hp]]. auto.
  - intros H p Hp. apply H. now apply in_map.
Qed.
Lemma good_keys E v : good_vec E v -> forall n, In n (zkeys v) -> e_isnuc E n = true.
Proof. intros G. apply valid_keys. apply good_acceptable in G. apply G. Qed.

Lemma filter_keys (f : Z * Q -> bool) v n : In n (zkeys (filter f v)) -> In n (zkeys v).
Proof. unfold zkeys. intros H. apply in_map_iff in H as [p [<- H]]. apply filter_In in H as [H _]. now apply in_map. Qed.

(** The remaining composition is refused exactly when the threshold is negative or some nuclide is
    over-drawn by more than the threshold. *)
Lemma extract_rest_accept E c0 c1 Q0 q t v : good_vec E (comp_mass E c0) -> good_vec E (comp_mass E c1) ->
  extract_rest E c0 c1 Q0 q t = Ok v ->
  (acceptable E v <-> forall n, - t <= remainder Q0 (comp_mass E c0) q (comp_mass E c1) n).
Proof.
  intros G0 G1 H. pose proof H as H'. unfold extract_rest in H, H'.
  set (u := comp_sub _ _) in *.
  assert (Wu : wf_comp u) by (apply comp_sub_wf, normalize_wf; apply G0).
  assert (Hu : forall n, amount n u == remainder Q0 (comp_mass E c0) q (comp_mass E c1) n) by (intros; now apply extract_rest_amount).
  assert (Ht : 0 <= t). { unfold apply_threshold in H'. qcase_in H'; [discriminate|lra]. }
  pose proof (apply_threshold_wf _ _ _ Wu H) as Wv.
  apply apply_threshold_ok in H as [_ Hf]; auto.
  split.
  - intros [_ A] n. rewrite <- Hu. unfold amount. destruct (zfind n u) as [x|] eqn:Ex; [|lra].
    destruct (Qlt_le_dec x (- t)) as [Hlt|]; [exfalso|lra].
    assert (Hv : zfind n v = Some x).
    { apply Hf. split; auto. unfold absq. rewrite Qabs_neg by lra. lra. }
    apply zfind_In in Hv. unfold all_positive in A. rewrite forallb_forall in A. apply A in Hv. simpl in Hv.
    destruct (Qltb_spec x 0); [discriminate|lra].
  - intros A. split.
    + apply valid_keys. intros n Hn.
      assert (Hn2 : In n (zkeys u)).
      { unfold apply_threshold in H'. qcase_in H'; [discriminate|]. inversion H'; subst v. eapply filter_keys; eauto. }
      unfold u in Hn2. apply comp_sub_keys in Hn2. rewrite !normalize_keys in Hn2.
      destruct Hn2; [eapply (good_keys E _ G0)|eapply (good_keys E _ G1)]; eauto.
    + unfold all_positive. apply forallb_forall. intros [n x] Hx. simpl.
      destruct (Qltb_spec x 0) as [Hneg|]; auto. exfalso.
      assert (Hz : zfind n v = Some x).
      { assert (Ha := amount_In n x v Wv Hx). unfold amount in Ha. destruct (zfind n v) eqn:Ez; [congruence|].
        apply zfind_None in Ez. exfalso. apply Ez. apply in_map_iff. exists (n, x). auto. }
      apply Hf in Hz as [Hz1 Hz2]. specialize (A n). rewrite <- Hu in A. unfold amount in A. rewrite Hz1 in A.
      unfold absq in Hz2. rewrite Qabs_neg in Hz2 by lra. lra.
Qed.

(** C01 for ExtractComp. *)
Lemma C01_extract_comp_lemma E i q c t w res w' : env_ok E -> reachable E w ->
  mat_extract_comp E i q c t w = (res, w') -> res <> UB ->
  exists r cp, nth_error (w_res w) i = Some r /\ r_qual r = QMat cp /\
  ((res = Throw ValueError /\ w' = w /\
    (r_qty r < q \/
     exists x0 x1, cp <> c /\ nth_error (w_comps w) cp = Some x0 /\ nth_error (w_comps w) c = Some x1 /\
       (t < 0 \/ exists n, r_qty r * frac n (comp_mass E x0) - q * frac n (comp_mass E x1) < - t))) \/
   (q <= r_qty r /\ extracted w w' i r q (QMat c) res /\
    (cp = c \/
     exists x0 x1, cp <> c /\ nth_error (w_comps w) cp = Some x0 /\ nth_error (w_comps w) c = Some x1 /\
       0 <= t /\ forall n, - t <= r_qty r * frac n (comp_mass E x0) - q * frac n (comp_mass E x1)))).
Proof.
  intros HE HR H N. pose proof (reachable_WF _ _ HE HR) as HW.
  apply extract_comp_phys in H as [r [cp [Hr [Eq D]]]]; auto. exists r, cp. split; auto. split; auto.
  destruct D as [[A [B C]]|[[A [F [B C]]]|[A [B [q' [cs [Hrest [Hp [Hc _]]]]]]]]].
  - left. auto.
  - left. split; auto. split; auto. right. destruct F as [x0 x1 Hne H0 H1 D].
    exists x0, x1. repeat (split; [assumption|]).
    destruct D as [D|[v [D1 D2]]]; [left; auto|].
    destruct (wf_cmp_nth _ _ _ _ HW H0) as [G0 _]. destruct (wf_cmp_nth _ _ _ _ HW H1) as [G1 _].
    right. pose proof (extract_rest_accept _ _ _ _ _ _ _ G0 G1 D1) as HA.
    (* some nuclide in the key set violates *)
    assert (Hdec : forall l, (forall n, In n l -> - t <= remainder (r_qty r) (comp_mass E x0) q (comp_mass E x1) n) \/
              exists n, remainder (r_qty r) (comp_mass E x0) q (comp_mass E x1) n < - t).
    { induction l as [|n l IH]; [left; intros ? []|]. destruct IH as [IH|IH]; [|auto].
      destruct (Qlt_le_dec (remainder (r_qty r) (comp_mass E x0) q (comp_mass E x1) n) (- t)); [right; eauto|].
      left. intros m [<-|Hm]; auto. }
    destruct (Hdec (zkeys (comp_mass E x0) ++ zkeys (comp_mass E x1))) as [Hd|Hd]; [|exact Hd].
    exfalso. apply D2, HA. intros n.
    assert (Ht : 0 <= t). { unfold extract_rest, apply_threshold in D1. qcase_in D1; [discriminate|lra]. }
    destruct (in_dec Z.eq_dec n (zkeys (comp_mass E x0) ++ zkeys (comp_mass E x1))) as [Hi|Hi]; [auto|].
    rewrite in_app_iff in Hi. unfold remainder, frac, amount.
    assert (zfind n (comp_mass E x0) = None) as -> by (apply zfind_None; tauto).
    assert (zfind n (comp_mass E x1) = None) as -> by (apply zfind_None; tauto). unfold Qdiv. lra.
  - right. split; auto. split.
    + eapply extracted_intro; eauto. eapply pcomps_kept; eauto.
    + inversion Hrest as [Heq|x0 x1 v Hne H0 H1 D1 D2]; subst; [left; auto|]. right. exists x0, x1.
      repeat (split; [assumption|]).
      destruct (wf_cmp_nth _ _ _ _ HW H0) as [G0 _]. destruct (wf_cmp_nth _ _ _ _ HW H1) as [G1 _].
      split; [unfold extract_rest, apply_threshold in D1; qcase_in D1; [discriminate|lra]|].
      apply (extract_rest_accept _ _ _ _ _ _ _ G0 G1 D1). auto.
Qed.
