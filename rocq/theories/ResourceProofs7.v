(** * Resources: C14 (packaging), C15 (re-packaging), C35 (mass and atom representations). *)
From Verif Require Import Base CompModel CompSpec CompProofs PackageModel PackageProofs PackageProofs2
  ResourceModel ResourceSpec ResourceProofs1 ResourceProofs2 ResourceProofs3 ResourceProofs4 ResourceProofs5 ResourceProofs6.
Open Scope Q_scope.
Open Scope m_scope.

Lemma Forall2_impl' {A B} (P P' : A -> B -> Prop) l l' : (forall a b, P a b -> P' a b) -> Forall2 P l l' -> Forall2 P' l l'.
Proof. intros H. induction 1; constructor; auto. Qed.

(** ** C14 *)


(** [j] is a package named [name] of [f], of the same quality as [r]. *)
Definition packaged (w : world) (r : resource) (name : string) (j : nat) (f : Q) : Prop :=
  exists n, nth_error (w_res w) j = Some n /\ r_qty n = f /\ r_pkg n = name /\ r_qual n = r_qual r /\ r_ctx n = r_ctx r.

Lemma package_loop_spec E i name fills : 0 <= e_eps E -> forall w r res w',
  nth_error (w_res w) i = Some r -> Forall (fun f => 0 <= f) fills -> qsum fills <= r_qty r ->
  package_loop E i name fills w = (res, w') -> res <> UB ->
  res = Ok (seq (length (w_res w)) (length fills)) /\
  length (w_res w') = (length (w_res w) + length fills)%nat /\
  (exists r', nth_error (w_res w') i = Some r' /\ r_qty r' == r_qty r - qsum fills /\
     r_qual r' = r_qual r /\ r_pkg r' = r_pkg r /\ r_obj r' = r_obj r /\ r_ctx r' = r_ctx r) /\
  Forall2 (packaged w' r name) (seq (length (w_res w)) (length fills)) fills /\
  others_same [i] w w' /\ comps_kept w w'.
Proof.
  intros He. induction fills as [|f rest IH]; simpl; intros w r res w' Hr Hf Hs H N.
  - inversion H; subst. split; auto. split; [lia|]. split; [|split; [constructor|split; [apply others_same_refl|apply comps_kept_refl]]].
    exists r. split; auto. split; [lra|auto].
  - inversion Hf; subst.
    assert (Hrest : 0 <= qsum rest). { clear - H3. induction H3; simpl; lra. }
    assert (Li := nth_error_lt _ _ _ Hr).
    apply bind_inv in H as [[j [w1 [H1 H]]]|[[e [H1 H]]|[H1 H]]]; [| |congruence].
    2:{ apply package_extract_phys in H1 as [x [Hx [[Hlt _]|[_ [? _]]]]]; [| discriminate|discriminate].
        rewrite Hr in Hx; inversion Hx; subst x. destruct (r_qual r); lra. }
    apply package_extract_phys in H1 as [x [Hx [[_ [? _]]|[_ [Ej [Hp [R _]]]]]]]; [discriminate| |discriminate].
    rewrite Hr in Hx; inversion Hx; subst x; clear Hx. inversion Ej; subst j; clear Ej.
    assert (X1 : exists r1, nth_error (w_res w1) i = Some r1 /\ looks_same (with_qty (r_qty r - f) r) r1).
    { apply pres_get. rewrite Hp, nth_error_app1 by (rewrite upd_length, pres_len; auto). rewrite nth_upd_same by (rewrite pres_len; auto). reflexivity. }
    destruct X1 as [r1 [Hr1 L1]].
    assert (X2 : exists n, nth_error (w_res w1) (length (w_res w)) = Some n /\ r_qty n = f /\ r_pkg n = name /\ r_qual n = r_qual r /\ r_ctx n = r_ctx r).
    { assert (Y : nth_error (pres w1) (length (w_res w)) = Some (fresh_phys w (r_qual r) (r_ctx r) f name match r_qual r with QMat _ => r_prev r | QProd _ => 0%Z end)).
      { rewrite Hp, <- pres_len.
        replace (length (pres w)) with (length (upd (pres w) i (ph_with_qty (r_qty r - f) (phys_of r)))) at 1 by apply upd_length.
        apply nth_app_new. }
      apply pres_nth_inv in Y as [n [Y1 Y2]]. exists n. split; auto.
      pose proof (f_equal ph_qty Y2). pose proof (f_equal ph_pkg Y2). pose proof (f_equal ph_qual Y2). pose proof (f_equal ph_ctx Y2). auto. }
    destruct X2 as [n [Hn [N1 [N2 [N3 N4]]]]].
    assert (Ln : length (w_res w1) = S (length (w_res w))).
    { rewrite <- !pres_len, Hp, app_length, upd_length. simpl. lia. }
    destruct L1 as [La [Lb [Lc [Ld [Le Lf]]]]]. simpl in *.
    assert (Hs1 : qsum rest <= r_qty r1) by (rewrite Lb; lra).
    assert (IHx : forall r2 w2, package_loop E i name rest w1 = (r2, w2) -> r2 <> UB ->
       r2 = Ok (seq (length (w_res w1)) (length rest)) /\
       length (w_res w2) = (length (w_res w1) + length rest)%nat /\
       (exists r', nth_error (w_res w2) i = Some r' /\ r_qty r' == r_qty r1 - qsum rest /\
           r_qual r' = r_qual r1 /\ r_pkg r' = r_pkg r1 /\ r_obj r' = r_obj r1 /\ r_ctx r' = r_ctx r1) /\
       Forall2 (packaged w2 r1 name) (seq (length (w_res w1)) (length rest)) rest /\
       others_same [i] w1 w2 /\ comps_kept w1 w2).
    { intros r2 w2 Hl Nl. apply (IH w1 r1 r2 w2); auto. }
    apply bind_inv in H as [[js [w2 [H2' H]]]|[[e [H2' H]]|[H2' H]]]; [| |congruence].
    2:{ destruct (IHx _ _ H2' ltac:(discriminate)) as [? _]. discriminate. }
    inversion H; subst; clear H.
    destruct (IHx _ _ H2' ltac:(discriminate)) as [Ej [Len [[r' [Hr' [Q1 [Q2 [Q3 [Q4 Q5]]]]]] [F2 [O K]]]]].
    inversion Ej; subst js; clear Ej. rewrite Ln in *.
    split; [reflexivity|]. split; [lia|]. split; [|split; [|split]].
    + exists r'. split; auto. split; [rewrite Q1, Lb; lra|]. repeat split; congruence.
    + constructor.
      * assert (Hne : i <> length (w_res w)) by lia.
        destruct (O (length (w_res w)) n ltac:(simpl; intuition) Hn) as [n' [Hn' [S1 [S2 [S3 [_ [S5 _]]]]]]].
        exists n'. repeat split; congruence.
      * eapply Forall2_impl'; [|exact F2]. intros k g [m [M1 [M2 [M3 [M4 M5]]]]]. exists m. repeat split; congruence.
    + eapply others_trans; [eapply others_upd; eauto|exact O].
    + exact (comps_kept_trans _ _ _ (rest_kept _ _ R) K).
Qed.



Lemma packaged_sum w r name js fills : Forall2 (packaged w r name) js fills -> sum_qty w js == qsum fills.
Proof.
  unfold sum_qty. induction 1 as [|j f js fills [n [H1 [H2 _]]] H IH]; simpl; [lra|]. rewrite H1, IH, H2. lra.
Qed.

Lemma C14_package_lemma E i e0 name fmin fmax strategy p samples w res w' r :
  pkg_create e0 name fmin fmax strategy = Ok p -> 0 < e_eps E ->
  Forall (fun s => fmin <= s <= fmax) samples ->
  nth_error (w_res w) i = Some r -> 0 < r_qty r ->
  res_package E i p samples w = (res, w') -> res <> UB ->
  (exists e rest, res = Throw e /\ w' = w /\ get_fill_mass (e_eps E) p samples (r_qty r) = Some (Throw e, rest)) \/
  (exists js, res = Ok js /\
    NoDup js /\ Forall (fun j => (length (w_res w) <= j < length (w_res w'))%nat) js /\
    Forall (fun j => exists n, nth_error (w_res w') j = Some n /\ r_pkg n = name /\ r_qual n = r_qual r /\
              fmin - e_eps E <= r_qty n <= fmax /\ (fmin <= r_qty r -> fmin <= r_qty n)) js /\
    (exists r', nth_error (w_res w') i = Some r' /\ r_qual r' = r_qual r /\ r_pkg r' = r_pkg r /\
       sum_qty w' js + r_qty r' == r_qty r /\ 0 <= r_qty r' /\ r_qty r' < qmax (e_eps E) fmin) /\
    others_same [i] w w' /\ comps_kept w w' /\ total_qty w' == total_qty w).
Proof.
  intros Hc He Hs Hr Hq H N. pose proof H as Hpk. unfold res_package in H. mrget H. rewrite Hr in Hn; inversion Hn; subst x; clear Hn.
  destruct (get_fill_mass (e_eps E) p samples (r_qty r)) as [[[fills|e|] rest]|] eqn:Eg; try (inversion H; subst; congruence).
  2:{ inversion H; subst. left. eauto. }
  right. pose proof Hc as Hc'. apply pkg_create_legal in Hc as [L [En [E1 [E2 _]]]].
  rewrite <- E1, <- E2 in Hs.
  destruct (fills_within_limits _ _ _ _ _ _ L He Hq Hs Eg) as [F1 [F2 [F3 [F4 F5]]]].
  pose proof (package_loop_total _ _ _ _ _ _ _ H N) as T.
  apply (package_loop_spec E i (p_name p) fills) with (r := r) in H as [-> [Len [[r' [Hr' [Q1 [Q2 [Q3 [Q4 Q5]]]]]] [P2 [O K]]]]]; auto; try lra.
  exists (seq (length (w_res w)) (length fills)). split; auto.
  split; [apply seq_NoDup|]. split; [|split; [|split; [|split; [|split]]]]; auto.
  - apply Forall_forall. intros j Hj. apply in_seq in Hj. rewrite Len. lia.
  - subst fmin fmax. rewrite <- En. clear - P2 F1 F2.
    remember (seq _ _) as js. clear Heqjs. induction P2 as [|j f js fs [n [H1 [H2 [H3 [H4 _]]]]] P IH]; constructor.
    + inversion F1; subst. exists n. split; [auto|]. split; [auto|]. split; [auto|]. split; [auto|]. intros Hm. specialize (F2 Hm). inversion F2; subst. auto.
    + inversion F1; subst. apply IH; auto. intros Hm. specialize (F2 Hm). inversion F2; auto.
  - exists r'. repeat (split; [assumption|]). rewrite (packaged_sum _ _ _ _ _ P2), Q1. subst fmin fmax. split; [lra|split; lra].
Qed.

(** ** C15 *)
Lemma get_package_inv E n w r w' : get_package E n w = (r, w') -> w' = w /\
  (n = unpackaged_name /\ r = Ok pkg_unpackaged \/
   n <> unpackaged_name /\
   match find (fun p => String.eqb n (fst p)) (e_pkgs E) with Some (_, p) => r = Ok p | None => r = Throw KeyError end).
Proof.
  unfold get_package. destruct (String.eqb_spec n unpackaged_name).
  - intros H; inversion H; subst. auto.
  - destruct (find _ _) as [[k p]|] eqn:Ef; intros H; inversion H; subst; auto.
Qed.



Lemma C15_product_lemma E i n w w' r s : nth_error (w_res w) i = Some r -> r_qual r = QProd s ->
  change_package E i n w = (Ok tt, w') ->
  exists r', nth_error (w_res w') i = Some r' /\ looks_same (with_pkg (r_pkg r') r) r' /\ others_same [i] w w' /\
   ((n = r_pkg r \/ r_ctx r = false) /\ w' = w \/
    n <> r_pkg r /\ r_ctx r = true /\ r_pkg r' = n /\ (n = unpackaged_name \/ within_limits_of E n (r_qty r))).
Proof.
  intros Hr Eq H. assert (N : @Ok unit tt <> UB) by discriminate. pose proof H as Hcp.
  apply change_package_phys in Hcp as [x [Hx [[[e [? _]]|[_ [pk [Hpk Hp]]]] [R _]]]]; [discriminate| |auto].
  rewrite Hr in Hx; inversion Hx; subst x; clear Hx.
  assert (L := nth_error_lt _ _ _ Hr).
  assert (X : nth_error (pres w') i = Some (ph_with_pkg pk (phys_of r))).
  { rewrite Hp. apply nth_upd_same. rewrite pres_len; auto. }
  apply pres_nth_inv in X as [r' [X1 X2]].
  pose proof (f_equal ph_pkg X2) as Xp. simpl in Xp. exists r'. split; auto.
  split; [apply phys_looks; rewrite X2, Xp; reflexivity|].
  split; [eapply (others_upd _ _ _ _ []); rewrite app_nil_r; eauto|].
  unfold change_package in H. mrget H. rewrite Hr in Hn; inversion Hn; subst x; clear Hn. rewrite Eq in H.
  unfold prod_change_package in H. mrget H. rewrite Hr in Hn; inversion Hn; subst x; clear Hn.
  destruct (String.eqb_spec n (r_pkg r)) as [Hsame|Hdiff].
  { left. simpl in H. inversion H; subst. auto. }
  simpl in H. destruct (r_ctx r) eqn:Ec; simpl in H; [|left; inversion H; subst; auto].
  right. split; auto. split; auto.
  assert (Hset : forall w2, (rmod i (with_pkg n);; tr_package E i None) w = (Ok tt, w2) -> w2 = w' -> r_pkg r' = n).
  { intros w2 Hu ->. mrmod Hu. rewrite Hr in Hn; inversion Hn; subst x; clear Hn.
    destruct (keeps_tr_package _ _ _ _ _ _ Hu N) as [_ S]. destruct (sp_nth_back _ _ _ _ S X1) as [r1 [Z1 Z2]].
    simpl in Z1. rewrite nth_upd_same in Z1 by auto. inversion Z1; subst r1. apply (f_equal ph_pkg) in Z2. exact Z2. }
  destruct (String.eqb_spec n unpackaged_name) as [Hu|Hu].
  - split; [eapply Hset; eauto|auto].
  - apply bind_inv in H as [[p [w1 [H1 H]]]|[[e [H1 H]]|[H1 H]]]; [|discriminate|congruence].
    apply get_package_inv in H1 as [-> [[? _]|[_ H1]]]; [congruence|].
    destruct (find _ _) as [[k p']|] eqn:Ef; inversion H1; subst p'; clear H1.
    destruct (Qleb_spec (p_fill_min p) (r_qty r)); simpl in H; [|inversion H].
    destruct (Qleb_spec (r_qty r) (p_fill_max p)); simpl in H; [|inversion H].
    split; [eapply Hset; eauto|]. right. exists k, p. auto.
Qed.

Lemma C15_material_lemma E i n w w' r c : nth_error (w_res w) i = Some r -> r_qual r = QMat c ->
  change_package E i n w = (Ok tt, w') ->
  exists r', nth_error (w_res w') i = Some r' /\ looks_same (with_pkg (r_pkg r') r) r' /\ others_same [i] w w' /\
   (r_ctx r = false /\ w' = w \/
    r_ctx r = true /\ r_pkg r' = n /\
    (n = unpackaged_name \/
     r_pkg r = unpackaged_name /\ p_fill_min pkg_unpackaged <= r_qty r <= p_fill_max pkg_unpackaged \/
     within_limits_of E (r_pkg r) (r_qty r))).
Proof.
  intros Hr Eq H. assert (N : @Ok unit tt <> UB) by discriminate. pose proof H as Hcp.
  apply change_package_phys in Hcp as [x [Hx [[[e [? _]]|[_ [pk [Hpk Hp]]]] [R _]]]]; [discriminate| |auto].
  rewrite Hr in Hx; inversion Hx; subst x; clear Hx.
  assert (L := nth_error_lt _ _ _ Hr).
  assert (X : nth_error (pres w') i = Some (ph_with_pkg pk (phys_of r))).
  { rewrite Hp. apply nth_upd_same. rewrite pres_len; auto. }
  apply pres_nth_inv in X as [r' [X1 X2]].
  pose proof (f_equal ph_pkg X2) as Xp. simpl in Xp. exists r'. split; auto.
  split; [apply phys_looks; rewrite X2, Xp; reflexivity|].
  split; [eapply (others_upd _ _ _ _ []); rewrite app_nil_r; eauto|].
  unfold change_package in H. mrget H. rewrite Hr in Hn; inversion Hn; subst x; clear Hn. rewrite Eq in H.
  unfold mat_change_package in H. mrget H. rewrite Hr in Hn; inversion Hn; subst x; clear Hn.
  destruct (r_ctx r) eqn:Ec; simpl in H; [|left; inversion H; subst; auto].
  right. split; auto.
  destruct (String.eqb_spec n unpackaged_name) as [Hu|Hu].
  - split; [|auto]. rewrite (rmod_ok _ _ _ _ Hr) in H. inversion H; subst w'. simpl in X1. rewrite nth_upd_same in X1 by auto.
    inversion X1; subst. reflexivity.
  - assert (Hset : forall w2, (rmod i (with_pkg n);; tr_package E i None) w = (Ok tt, w2) -> w2 = w' -> r_pkg r' = n).
    { intros w2 Hw ->. mrmod Hw. rewrite Hr in Hn; inversion Hn; subst x; clear Hn.
      destruct (keeps_tr_package _ _ _ _ _ _ Hw N) as [_ S]. destruct (sp_nth_back _ _ _ _ S X1) as [r1 [Z1 Z2]].
      simpl in Z1. rewrite nth_upd_same in Z1 by auto. inversion Z1; subst r1. apply (f_equal ph_pkg) in Z2. exact Z2. }
    apply bind_inv in H as [[p [w1 [H1 H]]]|[[e [H1 H]]|[H1 H]]]; [|discriminate|congruence].
    apply get_package_inv in H1 as [-> H1].
    destruct (Qleb_spec (p_fill_min p) (r_qty r)); simpl in H; [|inversion H].
    destruct (Qleb_spec (r_qty r) (p_fill_max p)); simpl in H; [|inversion H].
    split; [eapply Hset; eauto|]. right.
    destruct H1 as [[Hun H1]|[Hun H1]].
    + left. inversion H1; subst p. auto.
    + right. destruct (find _ _) as [[k p']|] eqn:Ef; inversion H1; subst p'; clear H1. exists k, p. auto.
Qed.

(** ** C35 *)


Lemma same_map_refl v : same_map v v.
Proof. induction v; constructor; auto. split; auto; lra. Qed.

Lemma C35_roundtrip_lemma E v : (forall n, 0 < e_amass E n) ->
  same_map (map (fun p => (fst p, snd p * e_amass E (fst p))) (map (fun p => (fst p, snd p / e_amass E (fst p))) v)) v /\
  same_map (map (fun p => (fst p, snd p / e_amass E (fst p))) (map (fun p => (fst p, snd p * e_amass E (fst p))) v)) v.
Proof.
  intros H. split; induction v as [|[k x] t IH]; simpl; constructor; auto; simpl; split; auto;
    specialize (H k); field; lra.
Qed.

Lemma map_nil_inv {A B} (f : A -> B) l : map f l = [] -> l = [].
Proof. destruct l; auto; discriminate. Qed.

(** Every call on an object made from masses returns: atom() = the mass over the atomic mass for each
    nuclide; mass() = the given map. *)
Lemma lazy_calls_const E ks : forall c A Mm,
  comp_atom E c = A -> comp_mass E c = Mm ->
  (c_atom c = [] \/ c_atom c = A) -> (c_mass c = [] \/ c_mass c = Mm) ->
  (c_atom c = [] -> A = map (fun p => (fst p, snd p / e_amass E (fst p))) Mm) ->
  (c_mass c = [] -> Mm = map (fun p => (fst p, snd p * e_amass E (fst p))) A) ->
  fst (lazy_calls E ks c) = map (fun k : bool => if k then Mm else A) ks.
Proof.
  induction ks as [|k t IH]; intros c A Mm HA HM CA CM EA EM; simpl; auto.
  assert (La : lazy_atom E c = (A, mkComp (c_id c) A (c_mass c) (c_recorded c) (c_prev c) (c_line c)) \/ lazy_atom E c = (A, c)).
  { unfold lazy_atom, comp_atom in *. destruct (c_atom c) eqn:Ec; [left; now rewrite HA|right; subst; reflexivity]. }
  assert (Lm : lazy_mass E c = (Mm, mkComp (c_id c) (c_atom c) Mm (c_recorded c) (c_prev c) (c_line c)) \/ lazy_mass E c = (Mm, c)).
  { unfold lazy_mass, comp_mass in *. destruct (c_mass c) eqn:Ec; [left; now rewrite HM|right; subst; reflexivity]. }
  destruct k.
  - destruct Lm as [-> | ->].
    + set (c1 := mkComp _ _ _ _ _ _).
      assert (X : fst (lazy_calls E t c1) = map (fun k : bool => if k then Mm else A) t).
      { apply IH; auto; unfold c1; simpl; auto.
        - unfold comp_atom in *. simpl. destruct (c_atom c) eqn:Ec; [symmetry; apply EA; auto|auto].
        - unfold comp_mass. simpl. destruct Mm; auto. assert (C0 : c_mass c = []) by (destruct CM; auto).
          assert (A = []) by (eapply map_nil_inv; symmetry; apply EM; auto).
          assert (C1 : c_atom c = []) by (destruct CA; congruence). rewrite C1. auto.
        - intros ->. apply EM. destruct CM; auto. }
      destruct (lazy_calls E t c1). simpl in *. now rewrite X.
    + assert (X := IH c A Mm HA HM CA CM EA EM). destruct (lazy_calls E t c). simpl in *. now rewrite X.
  - destruct La as [-> | ->].
    + set (c1 := mkComp _ _ _ _ _ _).
      assert (X : fst (lazy_calls E t c1) = map (fun k : bool => if k then Mm else A) t).
      { apply IH; auto; unfold c1; simpl; auto.
        - unfold comp_atom. simpl. destruct A; auto. assert (C0 : c_atom c = []) by (destruct CA; auto).
          assert (Mm = []) by (eapply map_nil_inv; symmetry; apply EA; auto).
          assert (C1 : c_mass c = []) by (destruct CM; congruence). rewrite C1. auto.
        - unfold comp_mass in *. simpl. destruct (c_mass c) eqn:Ec; [symmetry; apply EM; auto|auto].
        - intros ->. apply EA. destruct CA; auto. }
      destruct (lazy_calls E t c1). simpl in *. now rewrite X.
    + assert (X := IH c A Mm HA HM CA CM EA EM). destruct (lazy_calls E t c). simpl in *. now rewrite X.
Qed.

Lemma C35_from_mass_lemma E v w c w' ks : create_from_mass E v w = (Ok c, w') ->
  acceptable E v /\
  exists x, nth_error (w_comps w') c = Some x /\
    fst (lazy_calls E ks x) = map (fun k : bool => if k then v else map (fun p => (fst p, snd p / e_amass E (fst p))) v) ks.
Proof.
  intros H. apply create_from_mass_inv in H as [[_ [? _]]|[A [Ec ->]]]; [discriminate|].
  inversion Ec; subst c. split; auto. eexists. split; [simpl; apply nth_app_new|].
  apply lazy_calls_const; simpl; auto.
  - unfold comp_mass. simpl. destruct v; auto.
  - intros ->. auto.
Qed.
Lemma C35_from_atom_lemma E v w c w' ks : create_from_atom E v w = (Ok c, w') ->
  acceptable E v /\
  exists x, nth_error (w_comps w') c = Some x /\
    fst (lazy_calls E ks x) = map (fun k : bool => if k then map (fun p => (fst p, snd p * e_amass E (fst p))) v else v) ks.
Proof.
  unfold create_from_atom, acceptable. intros H.
  destruct (valid_nucs (e_isnuc E) v); simpl in H; [|inversion H].
  destruct (all_positive v); simpl in H; [|inversion H]. inversion H; subst. split; auto.
  eexists. split; [simpl; apply nth_app_new|].
  apply lazy_calls_const; simpl; auto.
  - unfold comp_atom. simpl. destruct v; auto.
  - intros ->. auto.
Qed.
Lemma C35_reject_lemma E v w : ~ Forall (fun p => e_isnuc E (fst p) = true /\ 0 <= snd p) v ->
  create_from_mass E v w = (Throw ValueError, w) /\ create_from_atom E v w = (Throw ValueError, w).
Proof.
  intros H. unfold create_from_mass, create_from_atom.
  destruct (valid_nucs (e_isnuc E) v) eqn:V; simpl; [|auto].
  destruct (all_positive v) eqn:P; simpl; [|auto]. exfalso. apply H.
  unfold valid_nucs, all_positive in *. rewrite forallb_forall in V, P. apply Forall_forall. intros x Hx. split; auto.
  specialize (P x Hx). destruct (Qltb_spec (snd x) 0); [discriminate|lra].
Qed.
Lemma acceptable_forall E v : acceptable E v <-> Forall (fun p => e_isnuc E (fst p) = true /\ 0 <= snd p) v.
Proof.
  unfold acceptable, valid_nucs, all_positive. rewrite !forallb_forall, Forall_forall. split.
  - intros [A B] x Hx. split; auto. specialize (B x Hx). destruct (Qltb_spec (snd x) 0); [discriminate|lra].
  - intros H. split; intros x Hx; apply H in Hx as [? ?]; auto. destruct (Qltb_spec (snd x) 0); auto; lra.
Qed.
