(** * Resources: well-formedness of reachable worlds, conservation over histories. *)
From Verif Require Import Base CompModel CompSpec CompProofs PackageModel ResourceModel ResourceSpec
  ResourceProofs1 ResourceProofs2.
Open Scope Q_scope.
Open Scope m_scope.

(** ** Total quantity *)
Lemma total_pres w : total_qty w == qsum (map ph_qty (pres w)).
Proof. unfold total_qty, pres. rewrite map_map. reflexivity. Qed.

Lemma qsum_pupd l i p p' : nth_error l i = Some p ->
  qsum (map ph_qty (upd l i p')) == qsum (map ph_qty l) - ph_qty p + ph_qty p'.
Proof. apply qsum_upd. Qed.

Lemma qsum_papp l p : qsum (map ph_qty (l ++ [p])) == qsum (map ph_qty l) + ph_qty p.
Proof. rewrite map_app, qsum_app. simpl. lra. Qed.




Lemma same_upd_total w w' i r p : nth_error (w_res w) i = Some r -> pres w' = upd (pres w) i p ->
  ph_qty p == r_qty r -> total_qty w' == total_qty w.
Proof.
  intros H E Hq. rewrite !total_pres, E. rewrite (qsum_pupd _ _ (phys_of r)) by now apply pres_nth.
  simpl. lra.
Qed.

Lemma drop_inv {A} (m : M A) w r w' : drop m w = (r, w') -> r <> UB ->
  exists r0, m w = (r0, w') /\ r0 <> UB /\ (forall a, r0 = Ok a -> r = Ok tt) /\ (forall e, r0 = Throw e -> r = Throw e).
Proof.
  unfold drop. intros H N. apply bind_inv in H as [[a [w1 [H1 H]]]|[[e [H1 H]]|[H1 H]]]; [| |congruence].
  - inversion H; subst. exists (Ok a). repeat split; auto; discriminate.
  - subst. exists (Throw e). repeat split; auto; try discriminate. intros; congruence.
Qed.

Lemma mat_only_inv i m w r w' : mat_only i m w = (r, w') -> r <> UB ->
  exists x c, nth_error (w_res w) i = Some x /\ r_qual x = QMat c /\ m w = (r, w').
Proof.
  unfold mat_only. intros H N. mrget H. unfold mat_comp_ptr in H. 
  destruct (r_qual x) eqn:Eq; apply bind_inv in H as [[a [w1 [H1 H]]]|[[e [H1 H]]|[H1 H]]]; try discriminate; try congruence.
  inversion H1; subst. eauto 6.
Qed.
Lemma valid_comp_inv c m w r w' : valid_comp c m w = (r, w') -> r <> UB ->
  exists x, nth_error (w_comps w) c = Some x /\ m w = (r, w').
Proof. unfold valid_comp. intros H N. mcref H. eauto. Qed.

Lemma comp_new_res a m w : exists w', comp_new a m w = (Ok (length (w_comps w)), w') /\ w_res w' = w_res w /\
  w_db w' = w_db w /\ w_next_obj w' = w_next_obj w /\ w_time w' = w_time w /\ w_next_state w' = w_next_state w.
Proof. eexists. split; [reflexivity|]. simpl. auto 6. Qed.

Lemma create_comp_res E (b : bool) v w r w' :
  (if b then create_from_mass E v else create_from_atom E v) w = (r, w') ->
  w_res w' = w_res w /\ w_db w' = w_db w /\ w_next_obj w' = w_next_obj w /\ w_time w' = w_time w /\
  w_next_state w' = w_next_state w /\ r <> UB.
Proof.
  unfold create_from_mass, create_from_atom. intros H.
  destruct b, (valid_nucs (e_isnuc E) v), (all_positive v); simpl in H; inversion H; subst; simpl; repeat split; discriminate.
Qed.

(** Quantities after Package's loop. *)
Lemma package_loop_total E i name fills : forall w r w', package_loop E i name fills w = (r, w') -> r <> UB ->
  total_qty w' == total_qty w.
Proof.
  induction fills as [|f rest IH]; simpl; intros w r w' H N.
  - inversion H; subst. lra.
  - apply bind_inv in H as [[j [w1 [H1 H]]]|[[e [H1 H]]|[H1 H]]]; [| |congruence].
    + assert (T1 : total_qty w1 == total_qty w).
      { apply package_extract_phys in H1 as [x [Hx D]]; [|discriminate]. cbv zeta in D.
        destruct D as [[_ [? _]]|[_ [_ [Hp _]]]]; [discriminate|].
        rewrite !total_pres, Hp, qsum_papp, (qsum_pupd _ _ (phys_of x)) by now apply pres_nth. simpl. lra. }
      apply bind_inv in H as [[js [w2 [H2 H]]]|[[e [H2 H]]|[H2 H]]]; [| |congruence].
      * inversion H; subst. apply IH in H2; [|discriminate]. lra.
      * subst. apply IH in H2; [|discriminate]. lra.
    + subst. apply package_extract_phys in H1 as [x [Hx D]]; [|discriminate]. cbv zeta in D.
      destruct D as [[_ [_ ->]]|[_ [? _]]]; [lra|discriminate].
Qed.

Lemma absorb_upd_total (l : list phys) i j a b p q0 : i <> j -> nth_error l i = Some a -> nth_error l j = Some b ->
  ph_qty p == ph_qty a + ph_qty b -> q0 == 0 ->
  qsum (map ph_qty (let l1 := upd l i p in match nth_error l1 j with Some pj => upd l1 j (ph_with_qty q0 pj) | None => l1 end))
  == qsum (map ph_qty l).
Proof.
  intros N Ha Hb Hp Hq. cbv zeta. rewrite nth_upd_other, Hb by auto.
  rewrite (qsum_pupd _ j b) by (rewrite nth_upd_other; auto).
  rewrite (qsum_pupd _ i a) by auto. simpl. lra.
Qed.

Lemma mat_comp_total E i w r w' : mat_comp E i w = (r, w') -> r <> UB -> total_qty w' == total_qty w.
Proof.
  intros H N. apply mat_comp_phys in H as [x [cp [Hx [_ [[e [_ ->]]|[c' [p' [_ [Hp _]]]]]]]]]; auto; [lra|].
  eapply same_upd_total; eauto. simpl. lra.
Qed.

Lemma step_total E o w r w' : plain_op o -> step E o w = (r, w') -> r <> UB ->
  total_qty w' == total_qty w + match r with Ok _ => op_supply o | _ => 0 end.
Proof.
  intros P H N. destruct o; simpl in H, P; try contradiction.
  - (* ONewComp *)
    destruct by_mass; apply drop_inv in H as [r0 [H _]]; auto;
    [apply (create_comp_res E true) in H | apply (create_comp_res E false) in H];
    destruct H as [H _]; unfold total_qty; rewrite H; destruct r; simpl; lra.
  - apply drop_inv in H as [r0 [H [N0 _]]]; auto. apply comp_decay_phys in H as [_ [H _]]; auto.
    unfold total_qty; rewrite H; destruct r; simpl; lra.
  - apply valid_comp_inv in H as [x [_ H]]; auto. apply drop_inv in H as [r0 [H [N0 [K _]]]]; auto.
    apply mat_create_phys in H as [-> [Hp _]]; auto. rewrite (K _ eq_refl).
    rewrite !total_pres, Hp, qsum_papp. simpl. lra.
  - apply valid_comp_inv in H as [x [_ H]]; auto. inversion H; subst. unfold total_qty. simpl.
    rewrite map_app, qsum_app. simpl. lra.
  - apply drop_inv in H as [r0 [H [N0 [K _]]]]; auto.
    apply prod_create_phys in H as [-> [Hp _]]; auto. rewrite (K _ eq_refl).
    rewrite !total_pres, Hp, qsum_papp. simpl. lra.
  - apply drop_inv in H as [r0 [H [N0 [K _]]]]; auto. unfold prod_create_untracked in H. mnew H.
    simpl in H. mrmod H. simpl in Hn. rewrite nth_app_new in Hn. inversion Hn; subst; clear Hn.
    inversion H; subst. rewrite (K _ eq_refl). unfold total_qty. simpl.
    rewrite upd_app_new, map_app, qsum_app. simpl. lra.
  - (* OExtract *)
    apply drop_inv in H as [r0 [H [N0 [K K2]]]]; auto. unfold extract_res in H. mrget H.
    destruct (r_qual x).
    + apply extract_qty_phys in H as [y [cp [Hy [_ [[_ [-> ->]]|[_ [-> [Hp _]]]]]]]]; auto.
      * rewrite (K2 _ eq_refl). lra.
      * rewrite (K _ eq_refl). rewrite !total_pres, Hp, qsum_papp, (qsum_pupd _ _ (phys_of y)) by now apply pres_nth. simpl. lra.
    + apply prod_extract_phys in H as [y [cp [Hy [_ [[_ [-> ->]]|[_ [-> [Hp _]]]]]]]]; auto.
      * rewrite (K2 _ eq_refl). lra.
      * rewrite (K _ eq_refl). rewrite !total_pres, Hp, qsum_papp, (qsum_pupd _ _ (phys_of y)) by now apply pres_nth. simpl. lra.
  - (* OExtractComp *)
    apply mat_only_inv in H as [y [cy [Hy [_ H]]]]; auto. apply valid_comp_inv in H as [x [_ H]]; auto.
    apply drop_inv in H as [r0 [H [N0 [K K2]]]]; auto.
    apply extract_comp_phys in H as [z [cp [Hz [_ [[_ [-> ->]]|[[_ [_ [-> ->]]]|[_ [-> [q' [cs [_ [Hp _]]]]]]]]]]]]; auto.
    + rewrite (K2 _ eq_refl). lra.
    + rewrite (K2 _ eq_refl). lra.
    + rewrite (K _ eq_refl). rewrite !total_pres, Hp, qsum_papp, (qsum_pupd _ _ (phys_of z)) by now apply pres_nth. simpl. lra.
  - (* OAbsorb *)
    assert (X : total_qty w' == total_qty w).
    { unfold absorb in H. mrget H. mrget H. destruct (r_qual x), (r_qual x0); try (inversion H; subst; congruence).
      - apply mat_absorb_phys in H as [d0 [d1 [w2 [a [b [[w1 [M1 M2]] [Ha [Hb D]]]]]]]]; auto.
        assert (T1 := mat_comp_total _ _ _ _ _ M1 ltac:(discriminate)).
        assert (T2 := mat_comp_total _ _ _ _ _ M2 ltac:(discriminate)).
        destruct D as [[? [? [_ [_ [_ [_ [_ ->]]]]]]]|[_ [q' [cs [p' [_ [_ [Hp _]]]]]]]]; [lra|].
        rewrite total_pres, Hp.
        rewrite (absorb_upd_total _ i j (phys_of a) (phys_of b)); try (now apply pres_nth); simpl; try lra; auto.
        rewrite <- total_pres. lra.
      - apply prod_absorb_phys in H as [a [b [sa [sb [Ha [Hb [_ [_ [[_ [_ ->]]|[_ [_ [Hp _]]]]]]]]]]]]; auto; [lra|].
        rewrite total_pres, Hp.
        rewrite (absorb_upd_total _ i j (phys_of a) (phys_of b)); try (now apply pres_nth); simpl; try lra; auto.
        rewrite <- total_pres. lra. }
    rewrite X. destruct r; simpl; lra.
  - (* OTransmute *)
    apply mat_only_inv in H as [y [cy [Hy [_ H]]]]; auto. apply valid_comp_inv in H as [x [_ H]]; auto.
    apply transmute_phys in H as [z [Hz [-> [Hp _]]]]; auto.
    rewrite (same_upd_total _ _ _ _ _ Hz Hp) by (simpl; lra). simpl. lra.
  - (* ODecay *)
    unfold res_decay in H. mrget H. destruct (r_qual x); [|inversion H; subst; lra].
    apply mat_decay_phys in H as [z [cp [Hz [_ [_ [[c' [p' Hp]] _]]]]]]; auto.
    rewrite (same_upd_total _ _ _ _ _ Hz Hp) by (simpl; lra). destruct r; simpl; lra.
  - (* OComp *)
    apply mat_only_inv in H as [y [cy [Hy [_ H]]]]; auto. apply drop_inv in H as [r0 [H [N0 _]]]; auto.
    apply mat_comp_total in H; auto. destruct r; simpl; lra.
  - (* OPackageExtract *)
    apply drop_inv in H as [r0 [H [N0 [K K2]]]]; auto.
    apply package_extract_phys in H as [x [Hx D]]; auto. cbv zeta in D.
    destruct D as [[_ [-> ->]]|[_ [-> [Hp _]]]].
    + rewrite (K2 _ eq_refl). lra.
    + rewrite (K _ eq_refl). rewrite !total_pres, Hp, qsum_papp, (qsum_pupd _ _ (phys_of x)) by now apply pres_nth. simpl. lra.
  - (* OPackage *)
    apply drop_inv in H as [r0 [H [N0 _]]]; auto. unfold res_package in H. mrget H.
    assert (X : total_qty w' == total_qty w); [|rewrite X; destruct r; simpl; lra].
    destruct (get_fill_mass _ _ _ _) as [[[fills|e|] ?]|]; [ | inversion H; subst; lra | inversion H; subst; congruence | inversion H; subst; congruence].
    apply package_loop_total in H; auto.
  - (* OChangePackage *)
    apply change_package_phys in H as [x [Hx [[[e [-> ->]]|[-> [pkg' [_ Hp]]]] _]]]; auto; [lra|].
    rewrite (same_upd_total _ _ _ _ _ Hx Hp) by (simpl; lra). simpl. lra.
  - inversion H; subst. unfold total_qty. simpl. lra.
Qed.

(** Sum of the quantities given to successful create calls. *)
Lemma run_total E : forall ops w w', Forall plain_op ops -> run E ops w = Some w' ->
  total_qty w' == total_qty w + qsum (map op_supply ops).
Proof.
  induction ops as [|o ops IH]; simpl; intros w w' P H.
  - inversion H; subst. lra.
  - inversion P; subst. destruct (step E o w) as [[u|e|] w1] eqn:Hs; [| |discriminate].
    + rewrite (IH _ _ H3 H). apply step_total in Hs; [|auto|discriminate]. lra.
    + rewrite (IH _ _ H3 H). pose proof Hs as Hs'. apply step_total in Hs; [|auto|discriminate].
      assert (Z : op_supply o == 0); [|lra].
      destruct o; simpl; try lra; exfalso; simpl in Hs'.
      * apply valid_comp_inv in Hs' as [x [_ Hx]]; [|discriminate].
        apply drop_inv in Hx as [r0 [Hx [N0 [K _]]]]; [|discriminate].
        apply mat_create_phys in Hx as [-> _]; auto. specialize (K _ eq_refl). discriminate.
      * apply valid_comp_inv in Hs' as [x [_ Hx]]; [|discriminate]. inversion Hx.
      * apply drop_inv in Hs' as [r0 [Hx [N0 [K _]]]]; [|discriminate].
        apply prod_create_phys in Hx as [-> _]; auto. specialize (K _ eq_refl). discriminate.
      * apply drop_inv in Hs' as [r0 [Hx [N0 [K K2]]]]; [|discriminate]. unfold prod_create_untracked in Hx. mnew Hx.
        simpl in Hx. mrmod Hx. inversion Hx; subst. specialize (K _ eq_refl). discriminate.
Qed.
Lemma C04_history_lemma E ops w : Forall plain_op ops -> run E ops world0 = Some w ->
  total_qty w == qsum (map op_supply ops).
Proof. intros P H. rewrite (run_total E ops world0 w P H). unfold total_qty. simpl. lra. Qed.
