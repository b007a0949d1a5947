From Verif Require Import Base CompModel CompSpec.
From Coq Require Import Qabs.
Open Scope Q_scope.

Lemma cget_amount n m : cget n m = amount n m.
Proof. reflexivity. Qed.

Lemma amount_zset_same n x m : amount n (zset n x m) = x.
Proof. unfold amount. now rewrite zfind_zset_same. Qed.
Lemma amount_zset_other n n' x m : n <> n' -> amount n' (zset n x m) = amount n' m.
Proof. intros. unfold amount. now rewrite zfind_zset_other. Qed.

Lemma amount_cons n k x t :
  zsorted ((k, x) :: t) -> amount n ((k, x) :: t) == (if Z.eqb n k then x else 0) + amount n t.
Proof.
  intros [H1 H2]. unfold amount. simpl. destruct (Z.eqb_spec n k).
  - subst. assert (zfind k t = None) as ->.
    { apply zfind_None. intro Hin. apply in_map_iff in Hin as [[k' v'] [E Hin]]. simpl in E; subst.
      rewrite Forall_forall in H1. apply H1 in Hin. simpl in Hin. lia. }
    lra.
  - lra.
Qed.

Lemma comp_fold_amount (f : Q -> Q -> Q) (s : Q)
      (Hf : forall a b, f a b == a + s * b) v2 :
  zsorted v2 -> forall v1 n,
  amount n (fold_left (fun out p => zset (fst p) (f (cget (fst p) out) (snd p)) out) v2 v1)
  == amount n v1 + s * amount n v2.
Proof.
  induction v2 as [|[k x] t IH]; intros Hs v1 n; cbn [fold_left fst snd].
  - unfold amount at 3. simpl. lra.
  - rewrite (amount_cons n k x t Hs). destruct Hs as [H1 H2]. rewrite (IH H2).
    destruct (Z.eqb_spec n k).
    + subst. rewrite amount_zset_same, Hf, cget_amount. lra.
    + rewrite amount_zset_other by congruence. lra.
Qed.

Lemma comp_add_amount v1 v2 n :
  wf_comp v2 -> amount n (comp_add v1 v2) == amount n v1 + amount n v2.
Proof.
  intros H. unfold comp_add. rewrite (comp_fold_amount Qplus 1); auto; [lra|intros; lra].
Qed.

Lemma comp_sub_amount v1 v2 n :
  wf_comp v2 -> amount n (comp_sub v1 v2) == amount n v1 - amount n v2.
Proof.
  intros H. unfold comp_sub. rewrite (comp_fold_amount Qminus (-1)); auto; [lra|intros; lra].
Qed.

Lemma comp_fold_sorted (f : Q -> Q -> Q) v2 : forall v1, zsorted v1 ->
  zsorted (fold_left (fun out p => zset (fst p) (f (cget (fst p) out) (snd p)) out) v2 v1).
Proof. induction v2; simpl; intros; auto. apply IHv2. now apply zset_sorted. Qed.

Lemma comp_add_wf v1 v2 : wf_comp v1 -> wf_comp (comp_add v1 v2).
Proof. apply comp_fold_sorted. Qed.
Lemma comp_sub_wf v1 v2 : wf_comp v1 -> wf_comp (comp_sub v1 v2).
Proof. apply comp_fold_sorted. Qed.

Lemma zset_keys_In {V} k (v : V) m x : In x (zkeys (zset k v m)) <-> x = k \/ In x (zkeys m).
Proof.
  unfold zkeys. induction m as [|[k0 v0] t IH]; simpl.
  - intuition.
  - destruct (Z.ltb_spec k k0); simpl; [intuition|].
    destruct (Z.eqb_spec k k0); simpl; [subst; intuition|]. rewrite IH. intuition.
Qed.

Lemma comp_fold_keys (f : Q -> Q -> Q) v2 : forall v1 x,
  In x (zkeys (fold_left (fun out p => zset (fst p) (f (cget (fst p) out) (snd p)) out) v2 v1))
  <-> In x (zkeys v1) \/ In x (zkeys v2).
Proof.
  induction v2 as [|[k q] t IH]; simpl; intros; [intuition|].
  rewrite IH, zset_keys_In. intuition.
Qed.

Lemma comp_add_keys v1 v2 x :
  In x (zkeys (comp_add v1 v2)) <-> In x (zkeys v1) \/ In x (zkeys v2).
Proof. apply comp_fold_keys. Qed.
Lemma comp_sub_keys v1 v2 x :
  In x (zkeys (comp_sub v1 v2)) <-> In x (zkeys v1) \/ In x (zkeys v2).
Proof. apply comp_fold_keys. Qed.

Lemma total_zset k x m : zsorted m -> total (zset k x m) == total m - amount k m + x.
Proof.
  unfold total, amount. induction m as [|[k0 v0] t IH]; simpl; intros Hs; [lra|].
  destruct Hs as [H1 H2]. destruct (Z.ltb_spec k k0); simpl.
  - destruct (Z.eqb_spec k k0); [lia|].
    assert (zfind k t = None) as ->; [|lra].
    apply zfind_None. intro Hin. apply in_map_iff in Hin as [[k' v'] [E Hin]]. simpl in E; subst.
    rewrite Forall_forall in H1. apply H1 in Hin. simpl in Hin. lia.
  - destruct (Z.eqb_spec k k0); simpl; [lra|]. rewrite IH; auto. lra.
Qed.

Lemma total_nil : total [] == 0.
Proof. reflexivity. Qed.
Lemma total_cons k x t : total ((k, x) :: t) == x + total t.
Proof. reflexivity. Qed.

Lemma total_comp_add v1 v2 : wf_comp v1 -> wf_comp v2 -> total (comp_add v1 v2) == total v1 + total v2.
Proof.
  unfold comp_add, wf_comp. revert v1. induction v2 as [|[k x] t IH]; intros v1 H1 H2.
  - rewrite total_nil. simpl. lra.
  - destruct H2 as [Ha Hb]. cbn [fold_left fst snd].
    rewrite IH; auto; [|now apply zset_sorted].
    rewrite total_zset by auto. change (cget k v1) with (amount k v1). rewrite total_cons. lra.
Qed.

Lemma total_comp_sub v1 v2 : wf_comp v1 -> wf_comp v2 -> total (comp_sub v1 v2) == total v1 - total v2.
Proof.
  unfold comp_sub, wf_comp. revert v1. induction v2 as [|[k x] t IH]; intros v1 H1 H2.
  - rewrite total_nil. simpl. lra.
  - destruct H2 as [Ha Hb]. cbn [fold_left fst snd].
    rewrite IH; auto; [|now apply zset_sorted].
    rewrite total_zset by auto. change (cget k v1) with (amount k v1). rewrite total_cons. lra.
Qed.

(** KahanSum *)
Lemma qinsert_perm x l : Permutation (qinsert x l) (x :: l).
Proof.
  induction l as [|y t IH]; simpl; auto. destruct (Qleb x y); auto.
  rewrite IH. apply perm_swap.
Qed.
Lemma qsort_perm l : Permutation (qsort l) l.
Proof. induction l; simpl; auto. rewrite qinsert_perm. now constructor. Qed.

Lemma kahan_fold l : forall s c, c == 0 ->
  fst (fold_left kahan_step l (s, c)) == s + qsum l.
Proof.
  induction l as [|x t IH]; cbn [fold_left qsum kahan_step]; intros s c Hc; [simpl; lra|].
  rewrite IH; [rewrite Hc; lra|]. lra.
Qed.

Lemma kahan_sum_correct l : kahan_sum l == qsum l.
Proof.
  unfold kahan_sum. rewrite kahan_fold by lra. rewrite (qsum_perm _ _ (qsort_perm l)). lra.
Qed.

Lemma comp_sum_total v : comp_sum v == total v.
Proof. apply kahan_sum_correct. Qed.

(** Normalize *)
Lemma amount_scale n c v : amount n (map (fun p => (fst p, snd p * c)) v) == amount n v * c.
Proof.
  unfold amount. induction v as [|[k x] t IH]; simpl; [lra|].
  destruct (Z.eqb n k); [lra|]. exact IH.
Qed.
Lemma total_scale c v : total (map (fun p => (fst p, snd p * c)) v) == total v * c.
Proof. unfold total. induction v as [|[k x] t IH]; simpl; [lra|]. rewrite IH. lra. Qed.
Lemma scale_wf c v : wf_comp v -> wf_comp (map (fun p => (fst p, snd p * c)) v).
Proof.
  unfold wf_comp. induction v as [|[k x] t IH]; simpl; auto. intros [H1 H2]. split; auto.
  apply Forall_map. simpl. exact H1.
Qed.
Lemma scale_keys c (v : compmap) : zkeys (map (fun p => (fst p, snd p * c)) v) = zkeys v.
Proof. unfold zkeys. rewrite map_map. reflexivity. Qed.

Lemma normalize_keys v x : zkeys (normalize v x) = zkeys v.
Proof. unfold normalize. destruct (_ && _); auto. apply scale_keys. Qed.
Lemma normalize_wf v x : wf_comp v -> wf_comp (normalize v x).
Proof. unfold normalize. destruct (_ && _); auto. apply scale_wf. Qed.

Lemma normalize_total v x : ~ total v == 0 -> total (normalize v x) == x.
Proof.
  intros H. unfold normalize. repeat qcase; simpl; rewrite ?comp_sum_total in *; try tauto.
  rewrite total_scale, comp_sum_total. field. auto.
Qed.
Lemma normalize_amount v x n :
  ~ total v == 0 -> amount n (normalize v x) == amount n v * (x / total v).
Proof.
  intros H. unfold normalize. repeat qcase; simpl; rewrite ?comp_sum_total in *; try tauto.
  - rewrite <- q. field. auto.
  - rewrite amount_scale, comp_sum_total. reflexivity.
Qed.
Lemma normalize_zero v x : total v == 0 -> normalize v x = v.
Proof.
  intros H. unfold normalize. repeat qcase; simpl; rewrite ?comp_sum_total in *; try tauto.
Qed.

(** Thresholds *)
Lemma qabs_absq x : qabs x == absq x.
Proof.
  unfold qabs, absq. qcase.
  - rewrite Qabs_neg; lra.
  - rewrite Qabs_pos; lra.
Qed.

Lemma filter_wf f (v : compmap) : zsorted v -> zsorted (filter f v).
Proof.
  induction v as [|[k x] t IH]; simpl; auto. intros [H1 H2]. destruct (f (k, x)); simpl; auto.
  split; auto. rewrite Forall_forall in *. intros p Hp. apply filter_In in Hp. apply H1. tauto.
Qed.

Lemma zfind_filter (f : Z * Q -> bool) v n : zsorted v ->
  zfind n (filter f v) = match zfind n v with
                         | Some x => if f (n, x) then Some x else None
                         | None => None
                         end.
Proof.
  induction v as [|[k x] t IH]; simpl; auto. intros [H1 H2].
  destruct (Z.eqb_spec n k).
  - subst. destruct (f (k, x)) eqn:E; simpl.
    + now rewrite Z.eqb_refl.
    + rewrite IH; auto. assert (zfind k t = None) as ->; auto.
      apply zfind_None. intro Hin. apply in_map_iff in Hin as [[k' v'] [E' Hin]]. simpl in E'; subst.
      rewrite Forall_forall in H1. apply H1 in Hin. simpl in Hin. lia.
  - destruct (f (k, x)); simpl; auto. destruct (Z.eqb_spec n k); auto. congruence.
Qed.

Lemma apply_threshold_ok v t r : wf_comp v -> apply_threshold v t = Ok r ->
  wf_comp r /\
  forall n, (forall x, zfind n r = Some x <-> zfind n v = Some x /\ t < absq x).
Proof.
  unfold apply_threshold. intros W. qcase; [discriminate|]. intros E; injection E as <-.
  split; [now apply filter_wf|]. intros m x. rewrite zfind_filter by auto.
  destruct (zfind m v) as [y|]; [|intuition discriminate]. simpl.
  pose proof (qabs_absq y) as Hy.
  destruct (Qleb_spec (qabs y) t); simpl.
  - split; [discriminate|]. intros [E Hlt]. injection E as ->. lra.
  - split; [|tauto]. intros E; split; auto. injection E as ->. lra.
Qed.

Lemma apply_threshold_amount v t r n : wf_comp v -> apply_threshold v t = Ok r ->
  absq (amount n v - amount n r) <= t.
Proof.
  intros W H. pose proof H as H0. apply apply_threshold_ok in H; auto. destruct H as [_ H].
  specialize (H n). unfold amount.
  assert (Ht : 0 <= t). { unfold apply_threshold in H0. qcase_in H0; [discriminate|lra]. }
  destruct (zfind n r) as [x|] eqn:E.
  - destruct (proj1 (H x) eq_refl) as [E' _]. rewrite E'.
    unfold absq. setoid_replace (x - x) with 0 by lra. simpl. exact Ht.
  - destruct (zfind n v) as [y|] eqn:Ev.
    + destruct (Qlt_le_dec t (absq y)) as [L|L].
      * specialize (H y). assert (@None Q = Some y) by (apply H; auto). discriminate.
      * unfold absq in *. setoid_replace (y - 0) with y by lra. exact L.
    + unfold absq. simpl. exact Ht.
Qed.

Lemma apply_threshold_total v t r : apply_threshold v t = Ok r ->
  t == 0 -> total r == total v.
Proof.
  unfold apply_threshold. qcase; [discriminate|]. intros E Ht; injection E as <-.
  unfold total. induction v as [|[k x] u IH]; simpl; [lra|].
  pose proof (qabs_absq x) as Hx. unfold absq in Hx.
  destruct (Qleb_spec (qabs x) t); simpl; [|rewrite IH; lra].
  rewrite IH. assert (x == 0); [|lra].
  assert (Qabs x <= 0) by lra. pose proof (Qabs_nonneg x).
  destruct (Qlt_le_dec x 0) as [L|L].
  - rewrite Qabs_neg in *; lra.
  - rewrite Qabs_pos in *; lra.
Qed.

(** AlmostEq *)
Lemma almost_eq_entry_spec n2 t n x :
  almost_eq_entry n2 t (n, x) = true <-> exists y, zfind n n2 = Some y /\ close t x y.
Proof.
  unfold almost_eq_entry. simpl. destruct (zfind n n2) as [y|]; [|split; [discriminate|intros [y [E _]]; discriminate]].
  assert (Z0 : forall z, qabs z == 0 <-> z == 0).
  { intros z. unfold qabs. qcase; lra. }
  assert (Hd : absq (x - y) == qabs (y - x)).
  { rewrite qabs_absq. unfold absq. rewrite Qabs_Qminus. reflexivity. }
  pose proof (qabs_absq x) as Hx. pose proof (qabs_absq y) as Hy.
  split.
  - intros H. exists y. split; auto. unfold close. rewrite Hd.
    destruct (Qeqb_spec (qabs y) 0) as [E1|E1]; [|destruct (Qeqb_spec (qabs x) 0) as [E2|E2]];
      cbn [orb] in H; rewrite ?Z0 in *.
    + left. split; auto. qcase_in H; [discriminate|lra].
    + left. split; auto. qcase_in H; [discriminate|lra].
    + right. repeat split; auto.
      * destruct (Qltb_spec (qabs x * t) (qabs (y - x))); [rewrite orb_true_r in H; discriminate|].
        rewrite <- Hx. lra.
      * destruct (Qltb_spec (qabs y * t) (qabs (y - x))); [discriminate|]. rewrite <- Hy. lra.
  - intros [y' [E C]]. injection E as <-. unfold close in C. rewrite Hd in C.
    destruct (Qeqb_spec (qabs y) 0) as [E1|E1]; [|destruct (Qeqb_spec (qabs x) 0) as [E2|E2]];
      cbn [orb]; rewrite ?Z0 in *.
    + destruct C as [[_ C]|[_ [C _]]]; [|tauto]. qcase; auto. lra.
    + destruct C as [[_ C]|[C _]]; [|tauto]. qcase; auto. lra.
    + destruct C as [[[C|C] _]|[_ [_ [C1 C2]]]]; try tauto.
      rewrite <- Hx in C1. rewrite <- Hy in C2. repeat qcase; auto; lra.
Qed.

Lemma close_sym t a b : close t a b -> close t b a.
Proof.
  unfold close. assert (E : absq (b - a) == absq (a - b)) by (unfold absq; now rewrite Qabs_Qminus).
  rewrite E. tauto.
Qed.

Lemma close_refl t a : 0 <= t -> close t a a.
Proof.
  intros Ht. unfold close. assert (E : absq (a - a) == 0).
  { unfold absq. setoid_replace (a - a) with 0 by lra. reflexivity. }
  rewrite E. destruct (Qeq_dec a 0); [left|right]; repeat split; auto; try lra;
  unfold absq; pose proof (Qabs_nonneg a); nra.
Qed.

Lemma close_eq t a b c : a == b -> close t a c -> close t b c.
Proof. intros E. unfold close, absq. rewrite E. auto. Qed.

Lemma almost_eq_spec v1 v2 t : wf_comp v1 -> wf_comp v2 -> 0 <= t ->
  almost_eq v1 v2 t = Ok true <->
  (forall n, In n (zkeys v1) <-> In n (zkeys v2)) /\
  (forall n a b, zfind n v1 = Some a -> zfind n v2 = Some b -> close t a b).
Proof.
  intros W1 W2 Ht. unfold almost_eq. qcase; [lra|].
  pose proof (zsorted_NoDup _ W1) as N1. pose proof (zsorted_NoDup _ W2) as N2.
  destruct (Nat.eqb_spec (length v1) (length v2)) as [El|El]; cbn [negb].
  - assert (Hfor : forallb (almost_eq_entry v2 t) v1 = true <->
      (forall n, In n (zkeys v1) <-> In n (zkeys v2)) /\
      (forall n a b, zfind n v1 = Some a -> zfind n v2 = Some b -> close t a b)).
    { rewrite forallb_forall. split.
      - intros H.
        assert (I12 : incl (zkeys v1) (zkeys v2)).
        { intros k Hk. apply in_map_iff in Hk as [[k' x] [E Hk]]. simpl in E. subst.
          specialize (H _ Hk). apply almost_eq_entry_spec in H as [y [Hy _]].
          apply zfind_In in Hy. apply in_map_iff. exists (k, y). auto. }
        split.
        + intros k. split; [apply I12|].
          apply NoDup_length_incl; auto. unfold zkeys. rewrite !map_length. lia.
        + intros k a b Ha Hb. apply zfind_In in Ha. apply H in Ha.
          apply almost_eq_entry_spec in Ha as [y [Hy C]]. congruence.
      - intros [Hk Hc] [k a] Hin. apply almost_eq_entry_spec.
        pose proof (zsorted_In_find _ _ _ W1 Hin) as Ha.
        destruct (zfind k v2) as [b|] eqn:Eb.
        + exists b. eauto.
        + apply zfind_None in Eb. exfalso. apply Eb, Hk. apply in_map_iff. exists (k, a). auto. }
    destruct v1 as [|p1 t1]; destruct v2 as [|p2 t2]; simpl in El; try discriminate.
    + simpl. split; auto. intros _. split; [tauto|]. intros; discriminate.
    + cbn [length Nat.eqb andb]. rewrite <- Hfor. split; [intros E; injection E; auto|intros ->; auto].
  - split; [discriminate|]. intros [Hk _]. exfalso. apply El.
    pose proof (NoDup_incl_length N1 (fun k Hx => proj1 (Hk k) Hx)).
    pose proof (NoDup_incl_length N2 (fun k Hx => proj2 (Hk k) Hx)).
    unfold zkeys in *. rewrite !map_length in *. lia.
Qed.

Lemma almost_eq_ok v1 v2 t : 0 <= t -> exists b, almost_eq v1 v2 t = Ok b.
Proof.
  intros Ht. unfold almost_eq. qcase; [lra|].
  destruct (negb _); eauto. destruct (_ && _); eauto.
Qed.

Lemma almost_eq_sym v1 v2 t : wf_comp v1 -> wf_comp v2 ->
  almost_eq v1 v2 t = almost_eq v2 v1 t.
Proof.
  intros W1 W2. destruct (Qlt_le_dec t 0) as [L|L].
  - unfold almost_eq. destruct (Qltb_spec t 0); auto; lra.
  - assert (K : forall a b, wf_comp a -> wf_comp b ->
                almost_eq a b t = Ok true -> almost_eq b a t = Ok true).
    { intros a b Wa Wb H. apply almost_eq_spec in H as [Hk Hc]; auto.
      apply almost_eq_spec; auto. split; [firstorder|].
      intros n x y Hx Hy. apply close_sym. eauto. }
    destruct (almost_eq_ok v1 v2 t L) as [b1 E1]. destruct (almost_eq_ok v2 v1 t L) as [b2 E2].
    pose proof (K v1 v2 W1 W2) as K1. pose proof (K v2 v1 W2 W1) as K2. rewrite E1, E2 in *.
    destruct b1, b2; auto; try (specialize (K1 eq_refl); congruence).
Qed.

Lemma almost_eq_refl v t : wf_comp v -> 0 <= t -> almost_eq v v t = Ok true.
Proof.
  intros W L. apply almost_eq_spec; auto. split; [tauto|].
  intros n a b Ha Hb. rewrite Ha in Hb. injection Hb as <-. now apply close_refl.
Qed.

Lemma sub_add v1 v2 n : wf_comp v2 -> amount n (comp_sub (comp_add v1 v2) v2) == amount n v1.
Proof. intros W. rewrite comp_sub_amount, comp_add_amount by auto. lra. Qed.

Lemma apply_threshold_full v t : wf_comp v ->
  (t < 0 -> apply_threshold v t = Throw ValueError) /\
  (0 <= t -> exists r, apply_threshold v t = Ok r /\ wf_comp r /\
     forall n x, zfind n r = Some x <-> zfind n v = Some x /\ t < absq x).
Proof.
  intros W. split; intros Ht.
  - unfold apply_threshold. qcase; auto. lra.
  - destruct (apply_threshold v t) as [r| |] eqn:E.
    + exists r. split; auto. pose proof (apply_threshold_ok v t r W E) as [A B]. split; auto.
    + unfold apply_threshold in E. qcase_in E; [lra|discriminate].
    + unfold apply_threshold in E. qcase_in E; discriminate.
Qed.
