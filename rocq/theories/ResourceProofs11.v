(** * Resources: every operation but Clone keeps the database consistent (C05-C07). *)
From Verif Require Import Base CompModel CompSpec CompProofs PackageModel
  ResourceModel ResourceSpec ResourceProofs1 ResourceProofs2 ResourceProofs3 ResourceProofs4 ResourceProofs5 ResourceProofs6 ResourceProofs8 ResourceProofs9 ResourceProofs10.
Open Scope Q_scope.
Open Scope m_scope.

Ltac jweak H := eapply J_weaken; [|exact H]; let k := fresh "k" in let Hk := fresh "Hk" in
  intros k Hk; repeat (rewrite ?rm_In in Hk; simpl in Hk); simpl; rewrite ?rm_In; intuition congruence.

Lemma J_drop E N D w i r : J E N D w -> nth_error (w_res w) i = Some r -> (r_ctx r = false \/ r_qty r <= e_eps E) ->
  J E N (rm i D) w.
Proof.
  intros Hj Hi C. destruct Hj. constructor; auto. intros k x Hk Hc HN Hd Hq.
  destruct (Nat.eq_dec k i); [subst|].
  - rewrite Hi in Hk. inversion Hk; subst. destruct C; [congruence|lra].
  - apply (j_last k x); auto. intros HI. apply Hd. apply rm_In. auto.
Qed.

Lemma world_add_nil w : add_db [] w = w.
Proof. destruct w; unfold add_db, set_db; simpl. now rewrite app_nil_r. Qed.

Lemma tr_record_J E N D w b i r u w' : J E N D w -> nth_error (w_res w) i = Some r ->
  tr_record E b i w = (u, w') -> u <> UB -> (b = true \/ N = Some i) ->
  In (r_p1 r) (row_ids w) ->
  (r_p2 r = 0%Z \/ In (r_p2 r) (row_ids w) \/ untracked_state w (r_p2 r)) ->
  r_ctx r = true /\ u = Ok tt /\ J E (drop_new N i) (rm i D) w' /\ sp w w'.
Proof.
  intros Hj Hi H N0 Hb P1 P2. pose proof H as H0.
  assert (S : sp w w') by (apply (keeps_tr_record E b i) in H as [_ S]; auto).
  apply tr_record_inv in H as [t [x [Ht [Hx [Hc [Hq [-> ->]]]]]]]; auto.
  rewrite Hi in Ht. inversion Ht; subst t. rewrite (j_tres _ _ _ _ Hj _ _ Hi) in Hx. rewrite Hi in Hx. inversion Hx; subst x.
  split; auto. split; auto. split; auto.
  rewrite <- (world_add_nil (rec_world E b r r w)). apply J_record; auto.
  left. split; auto. intros E0. rewrite E0 in P1. apply in_map_iff in P1 as [y [Ey Hy]].
  apply (j_rows _ _ _ _ Hj) in Hy. lia.
Qed.

(** Setting the parents and recording. *)
Lemma parents_record_J E N D w b i r p1 p2 u w' : J E N D w -> nth_error (w_res w) i = Some r ->
  (rmod i (with_parents p1 p2);; tr_record E b i) w = (u, w') -> u <> UB -> (b = true \/ N = Some i) ->
  In p1 (row_ids w) -> (p2 = 0%Z \/ In p2 (row_ids w) \/ untracked_state w p2) ->
  r_ctx r = true /\ u = Ok tt /\ J E (drop_new N i) (rm i D) w' /\ sp w w'.
Proof.
  intros Hj Hi H N0 Hb P1 P2. assert (L := nth_error_lt _ _ _ Hi).
  apply bind_inv in H as [[u1 [w1 [H1 H]]]|[[e [H1 H]]|[H1 H]]]; [| |congruence].
  2:{ apply rmod_inv in H1 as [? [_ [? _]]]; discriminate. }
  pose proof (J_parents _ _ _ _ _ _ _ _ _ Hj H1 ltac:(discriminate)) as J1.
  assert (S1 : sp w w1) by (apply keeps_rmod in H1 as [_ S]; auto; discriminate).
  apply rmod_inv in H1 as [x [Hx [_ ->]]]; [|discriminate]. rewrite Hi in Hx. inversion Hx; subst x.
  destruct (tr_record_J E N D _ b i (with_parents p1 p2 r) u w' J1) as [A [B [C S2]]]; auto.
  - simpl. now apply nth_upd_same.
  - simpl. destruct P2 as [P2|[P2|[k [y [Hy [Hc Hs]]]]]]; auto. right; right. unfold untracked_state. simpl.
    destruct (Nat.eq_dec k i); [subst k|].
    + rewrite Hi in Hy. inversion Hy; subst y. exists i, (with_parents p1 p2 r). rewrite nth_upd_same by auto. auto.
    + exists k, y. rewrite nth_upd_other by auto. auto.
  - split; [exact A|]. split; [exact B|]. split; [exact C|]. eapply sp_trans; [exact S1|exact S2].
Qed.

Lemma state_or_untracked E D w j r : J E None D w -> nth_error (w_res w) j = Some r ->
  In (r_state r) (row_ids w) \/ untracked_state w (r_state r).
Proof.
  intros Hj H. destruct (r_ctx r) eqn:C.
  - left. eapply j_rec; eauto. discriminate.
  - right. exists j, r. auto.
Qed.

(** The state of a tracked resource is recorded. *)
Lemma state_recorded E N D w j r : J E N D w -> nth_error (w_res w) j = Some r -> r_ctx r = true -> N <> Some j ->
  In (r_state r) (row_ids w).
Proof. intros. eapply j_rec; eauto. Qed.

(** A record step reveals the context, provided the parents are what the tracker set them to. *)
Lemma parents_record_ctx E b i p1 p2 w u w' r : (rmod i (with_parents p1 p2);; tr_record E b i) w = (u, w') -> u <> UB ->
  nth_error (w_res w) i = Some r -> r_ctx r = true.
Proof.
  intros H N0 Hi. apply bind_inv in H as [[u1 [w1 [H1 H]]]|[[e [H1 H]]|[H1 H]]]; [| |congruence].
  2:{ apply rmod_inv in H1 as [? [_ [? _]]]; discriminate. }
  apply rmod_inv in H1 as [x [Hx [_ ->]]]; [|discriminate]. rewrite Hi in Hx. inversion Hx; subst x.
  apply tr_record_inv in H as [t [x [Ht [_ [Hc _]]]]]; auto. simpl in Ht.
  rewrite nth_upd_same in Ht by (eapply nth_error_lt; eauto). inversion Ht; subst t. exact Hc.
Qed.

Lemma tr_modify_J E N D w i r u w' : J E N D w -> nth_error (w_res w) i = Some r -> N <> Some i ->
  tr_modify E i w = (u, w') -> u <> UB -> u = Ok tt /\ J E N (rm i D) w' /\ sp w w'.
Proof.
  intros Hj Hi HN H N0. unfold tr_modify in H. mrget H. rewrite Hi in Hn. inversion Hn; subst x. clear Hn.
  destruct (r_tracked r) eqn:T; simpl in H.
  - mrget H. rewrite (j_tres _ _ _ _ Hj _ _ Hi), Hi in Hn. inversion Hn; subst x. clear Hn.
    assert (C := parents_record_ctx _ _ _ _ _ _ _ _ _ H N0 Hi).
    destruct (parents_record_J _ _ _ _ _ _ _ _ _ _ _ Hj Hi H N0 (or_introl eq_refl)) as [_ [A [B S]]]; auto.
    { eapply j_rec; eauto. }
    split; auto. split; auto. destruct N as [n|]; auto. unfold drop_new in B. destruct (Nat.eqb_spec n i); [congruence|auto].
  - inversion H; subst. split; auto. split; [|apply sp_refl]. eapply J_drop; eauto. left.
    destruct (r_ctx r) eqn:C; auto. rewrite (j_trk _ _ _ _ Hj _ _ Hi C) in T. discriminate.
Qed.

Lemma tr_package_None_J E D w i r u w' : J E None D w -> nth_error (w_res w) i = Some r ->
  tr_package E i None w = (u, w') -> u <> UB -> u = Ok tt /\ J E None (rm i D) w' /\ sp w w'.
Proof.
  intros Hj Hi H N0. change (tr_package E i None) with (tr_modify E i) in H. eapply tr_modify_J; eauto. discriminate.
Qed.

Lemma tr_absorb_J E D w i j r u w' : J E None D w -> nth_error (w_res w) i = Some r ->
  tr_absorb E i j w = (u, w') -> u <> UB -> u = Ok tt /\ J E None (rm i D) w' /\ sp w w'.
Proof.
  intros Hj Hi H N0. unfold tr_absorb in H. mrget H. rewrite Hi in Hn. inversion Hn; subst x. clear Hn.
  destruct (r_tracked r) eqn:T; simpl in H.
  - mrget H. rewrite (j_tres _ _ _ _ Hj _ _ Hi), Hi in Hn. inversion Hn; subst x. clear Hn.
    mrget H. mrget H. rewrite (j_tres _ _ _ _ Hj _ _ Hn) in Hn0. rewrite Hn in Hn0. inversion Hn0; subst x0.
    assert (C := parents_record_ctx _ _ _ _ _ _ _ _ _ H N0 Hi).
    destruct (parents_record_J _ _ _ _ _ _ _ _ _ _ _ Hj Hi H N0 (or_introl eq_refl)) as [_ [A [B S]]]; auto.
    { eapply j_rec; eauto. discriminate. }
    { right. eapply state_or_untracked; eauto. }
  - inversion H; subst. split; auto. split; [|apply sp_refl]. eapply J_drop; eauto. left.
    destruct (r_ctx r) eqn:C; auto. rewrite (j_trk _ _ _ _ Hj _ _ Hi C) in T. discriminate.
Qed.

Lemma tr_package_Some_J E D w j i r p u w' (ctx := r_ctx r) : J E (if ctx then Some j else None) D w ->
  nth_error (w_res w) j = Some r -> nth_error (w_res w) i = Some p -> r_ctx p = r_ctx r -> i <> j ->
  tr_package E j (Some i) w = (u, w') -> u <> UB -> u = Ok tt /\ J E None (rm j D) w' /\ sp w w'.
Proof.
  intros Hj Hr Hp Hc Hne H N0. unfold tr_package in H. mrget H. rewrite Hr in Hn. inversion Hn; subst x. clear Hn.
  destruct (r_tracked r) eqn:T; simpl in H.
  - mrget H. rewrite Hp in Hn. inversion Hn; subst x. clear Hn.
    mrget H. rewrite (j_tres _ _ _ _ Hj _ _ Hp), Hp in Hn. inversion Hn; subst x. clear Hn.
    assert (C := parents_record_ctx _ _ _ _ _ _ _ _ _ H N0 Hr). unfold ctx in Hj. rewrite C in Hj, Hc.
    destruct (parents_record_J _ _ _ _ _ _ _ _ _ _ _ Hj Hr H N0 (or_intror eq_refl)) as [_ [A [B S]]]; auto.
    { eapply j_rec; eauto. congruence. }
    simpl in B. rewrite Nat.eqb_refl in B. auto.
  - inversion H; subst. split; auto. split; [|apply sp_refl]. 
    assert (C : r_ctx r = false).
    { destruct (r_ctx r) eqn:C; auto. rewrite (j_trk _ _ _ _ Hj _ _ Hr C) in T. discriminate. }
    unfold ctx in Hj. rewrite C in Hj. eapply J_drop; eauto.
Qed.

Lemma tr_extract_J E D w i j r n u w' (ctx := r_ctx r) : J E (if ctx then Some j else None) D w ->
  nth_error (w_res w) j = Some n -> nth_error (w_res w) i = Some r -> r_ctx n = r_ctx r -> i <> j ->
  tr_extract E i j w = (u, w') -> u <> UB -> u = Ok tt /\ J E None (rm i (rm j D)) w' /\ sp w w'.
Proof.
  intros Hj Hn Hr Hc Hne H N0. unfold tr_extract in H. mrget H. rewrite Hr in Hn0. inversion Hn0; subst x. clear Hn0.
  assert (Lj := nth_error_lt _ _ _ Hn). assert (Li := nth_error_lt _ _ _ Hr).
  destruct (r_tracked r) eqn:T; simpl in H.
  - mrget H. rewrite (j_tres _ _ _ _ Hj _ _ Hr), Hr in Hn0. inversion Hn0; subst x. clear Hn0.
    (* the context is there, because j is recorded *)
    apply bind_inv in H as [[u1 [w1 [H1 H]]]|[[e [H1 H]]|[H1 H]]]; [| |congruence].
    2:{ destruct (Qltb _ _); [apply rmod_inv in H1 as [? [_ [? _]]]; discriminate|discriminate]. }
    assert (J1 : J E (if ctx then Some j else None) D w1).
    { destruct (Qltb _ _); [eapply J_parents; eauto; discriminate|inversion H1; subst; auto]. }
    assert (S1 : sp w w1).
    { destruct (Qltb _ _); [|inversion H1; subst; apply sp_refl]. apply keeps_rmod in H1 as [_ S]; auto. discriminate. }
    assert (R1 : row_ids w1 = row_ids w).
    { destruct (Qltb _ _); [apply rmod_inv in H1 as [? [_ [_ ->]]]; [reflexivity|discriminate]|inversion H1; subst; auto]. }
    assert (P1 : exists ri, nth_error (w_res w1) i = Some ri /\ phys_of ri = phys_of r /\ r_state ri = r_state r /\ r_tracked ri = true /\
       (Qltb (e_eps E) (r_qty r) = true -> r_p1 ri = r_state r /\ r_p2 ri = 0%Z)).
    { destruct (Qltb _ _) eqn:Q.
      - apply rmod_inv in H1 as [x [Hx [_ ->]]]; [|discriminate]. rewrite Hr in Hx. inversion Hx; subst x.
        eexists. simpl. rewrite nth_upd_same by auto. split; [reflexivity|]. simpl. auto.
      - inversion H1; subst. exists r. repeat split; auto; discriminate. }
    assert (Hn1 : nth_error (w_res w1) j = Some n).
    { destruct (Qltb _ _); [apply rmod_inv in H1 as [? [_ [_ ->]]]; [|discriminate]|inversion H1; subst; auto].
      simpl. rewrite nth_upd_other by auto. auto. }
    clear H1. destruct P1 as [ri [Hri [Pri [Sri [Tri PPi]]]]].
    mrmod H. rewrite Hn1 in Hn0. inversion Hn0; subst x. clear Hn0.
    cbv beta in H.
    set (n2 := with_tracked true (with_parents (r_state r) 0 n)) in *.
    set (w2 := set_res (upd (w_res w1) j n2) w1) in *.
    assert (Lj1 : (j < length (w_res w1))%nat) by (eapply nth_error_lt; eauto).
    assert (Hn2 : nth_error (w_res w2) j = Some n2) by (unfold w2; simpl; now apply nth_upd_same).
    apply bind_inv in H as [[u2 [w3 [H2 H]]]|[[e [H2 H]]|[H2 H]]]; [| |congruence].
    2:{ apply tr_record_inv in H2 as [? [? [_ [_ [_ [_ [? _]]]]]]]; discriminate. }
    assert (C : r_ctx r = true).
    { apply tr_record_inv in H2 as [t [? [Ht [_ [Hcc _]]]]]; [|discriminate].
      rewrite Hn2 in Ht. inversion Ht; subst t. unfold n2 in Hcc. simpl in Hcc. congruence. }
    unfold ctx in *. rewrite C in *.
    assert (J2 : J E (Some j) (j :: D) w2).
    { unfold w2, n2. apply (J_upd E (Some j) D w1 j n (fun n => with_tracked true (with_parents (r_state r) 0 n))); auto.
      - intros s Hcs Eq. eapply (j_qual _ _ _ _ J1 j n); eauto.
      - intros c Eq. eapply (j_ptr _ _ _ _ J1 j n); eauto. }
    assert (RI : In (r_state r) (row_ids w)).
    { eapply (j_rec _ _ _ _ Hj i r); eauto. congruence. }
    destruct (tr_record_J E (Some j) (j :: D) w2 true j n2 _ _ J2 Hn2 H2 ltac:(discriminate) (or_introl eq_refl)) as [_ [_ [J3 S3]]].
    { unfold n2. simpl. change (row_ids w2) with (row_ids w1). rewrite R1. exact RI. }
    { left. reflexivity. }
    simpl in J3. rewrite Nat.eqb_refl in J3. simpl in J3.
    assert (S12 : sp w1 w2).
    { unfold w2. constructor; simpl; auto; try lia. rewrite map_upd. apply upd_same.
      rewrite nth_error_map, Hn1. reflexivity. }
    assert (S13 : sp w w3) by (exact (sp_trans _ _ _ S1 (sp_trans _ _ _ S12 S3))).
    mrget H. rename x into y. 
    assert (Ti : r_tres r = i) by (exact (j_tres _ _ _ _ Hj _ _ Hr)). rewrite Ti in Hn0.
    (* the second recording *)
    assert (Y : phys_of y = phys_of r).
    { destruct (sp_nth _ _ _ _ S13 Hr) as [y' [Hy' Py]]. rewrite Hn0 in Hy'. inversion Hy'; subst. auto. }
    assert (Yq : r_qty y = r_qty r) by (apply (f_equal ph_qty) in Y; exact Y).
    rewrite Yq in H. destruct (Qltb (e_eps E) (r_qty r)) eqn:Q.
    + assert (Y2 : r_state y = r_state r /\ r_p1 y = r_state r /\ r_p2 y = 0%Z).
      { apply tr_record_inv in H2 as [t [x0 [Ht [Hx0 [_ [_ [_ ->]]]]]]]; [|discriminate].
        rewrite Hn2 in Ht. inversion Ht; subst t.
        assert (Tj : r_tres n = j) by (exact (j_tres _ _ _ _ J1 _ _ Hn1)).
        simpl in Hn0. rewrite Tj in Hn0. rewrite !nth_upd_other in Hn0 by auto.
        rewrite Hri in Hn0. inversion Hn0; subst y. destruct (PPi eq_refl). auto. }
      destruct Y2 as [Ys [Yp1 Yp2]].
      assert (IN3 : In (r_p1 y) (row_ids w3)).
      { rewrite Yp1, <- Ys. apply (j_rec _ _ _ _ J3 i y); auto; [|discriminate]. apply (f_equal ph_ctx) in Y. simpl in Y. congruence. }
      destruct (tr_record_J E None (rm j D) w3 true i y _ _ J3 Hn0 H N0 (or_introl eq_refl) IN3) as [_ [A [J4 S4]]].
      { auto. }
      split; auto. split; [|eapply sp_trans; eauto]. jweak J4.
    + clear Ti. inversion H; subst. split; auto. split; auto.
      assert (J4 : J E None (rm i (rm j D)) w').
      { eapply J_drop; eauto. right. rewrite Yq. unfold Qltb in Q. apply negb_false_iff in Q. apply Qle_bool_iff in Q. exact Q. }
      jweak J4.
  - inversion H; subst. split; auto. split; [|apply sp_refl].
    assert (C : r_ctx r = false).
    { destruct (r_ctx r) eqn:C; auto. rewrite (j_trk _ _ _ _ Hj _ _ Hr C) in T. discriminate. }
    unfold ctx in Hj. rewrite C in Hj. eapply J_drop; [eapply J_drop; [exact Hj|exact Hn|left; congruence]|exact Hr|auto].
Qed.

Lemma tr_create_J E a D w i r u w' : J E (Some i) D w -> nth_error (w_res w) i = Some r -> r_ctx r = true ->
  tr_create E a i w = (u, w') -> u <> UB -> u = Ok tt /\ J E None (rm i D) w'.
Proof.
  intros Hj Hi Hc H N0. assert (L := nth_error_lt _ _ _ Hi). unfold tr_create in H. mrget H. rewrite Hi in Hn. inversion Hn; subst x. clear Hn.
  rewrite (j_trk _ _ _ _ Hj _ _ Hi Hc) in H. simpl in H.
  apply bind_inv in H as [[u1 [w1 [H1 H]]]|[[e [H1 H]]|[H1 H]]]; [| |congruence].
  2:{ apply rmod_inv in H1 as [? [_ [? _]]]; discriminate. }
  pose proof (J_parents _ _ _ _ _ _ _ _ _ Hj H1 ltac:(discriminate)) as J1.
  apply rmod_inv in H1 as [x [Hx [_ ->]]]; [|discriminate]. rewrite Hi in Hx. inversion Hx; subst x. clear Hx.
  set (w1 := set_res (upd (w_res w) i (with_parents 0 0 r)) w) in *.
  assert (Hi1 : nth_error (w_res w1) i = Some (with_parents 0 0 r)) by (unfold w1; simpl; now apply nth_upd_same).
  apply bind_inv in H as [[u2 [w2 [H2 H]]]|[[e [H2 H]]|[H2 H]]]; [| |congruence].
  2:{ apply tr_record_inv in H2 as [? [? [_ [_ [_ [_ [? _]]]]]]]; discriminate. }
  apply tr_record_inv in H2 as [t [x [Ht [Hx [Hct [Hq [_ ->]]]]]]]; [|discriminate].
  rewrite Hi1 in Ht. inversion Ht; subst t. clear Ht.
  assert (Ti : r_tres r = i) by (exact (j_tres _ _ _ _ Hj _ _ Hi)).
  simpl r_tres in Hx. rewrite Ti, Hi1 in Hx. inversion Hx; subst x. clear Hx.
  revert Ti. mrget H. intros Ti. simpl in Hn. rewrite Ti in Hn. rewrite nth_upd_same in Hn by (rewrite upd_length; auto). inversion Hn; subst x. clear Hn. clear Ti.
  unfold emit, modify in H. inversion H; subst. split; auto.
  replace (rm i D) with (rm i D) by auto.
  pose proof (J_record E (Some i) D w1 false i (with_parents 0 0 r) [DCreator (r_state r) a] J1 Hi1 Hc
    (or_intror eq_refl) (or_introl eq_refl) (or_introl eq_refl)) as K.
  simpl in K. rewrite Nat.eqb_refl in K. apply K. right. split; auto. exists a. reflexivity.
Qed.
