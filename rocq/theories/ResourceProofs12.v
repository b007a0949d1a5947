(** * Resources: every operation but Clone keeps the database consistent, histories (C05-C07). *)
From Verif Require Import Base CompModel CompSpec CompProofs PackageModel
  ResourceModel ResourceSpec ResourceProofs1 ResourceProofs2 ResourceProofs3 ResourceProofs4 ResourceProofs5 ResourceProofs6 ResourceProofs8 ResourceProofs9 ResourceProofs10 ResourceProofs11.
Open Scope Q_scope.
Open Scope m_scope.

Definition opJ E {A} (m : M A) : Prop := forall w u w', J E None [] w -> m w = (u, w') -> u <> UB -> J E None [] w'.

Lemma opJ_drop E {A} (m : M A) : opJ E m -> opJ E (drop m).
Proof.
  intros Hm w u w' Hj H N0. unfold drop in H. mbind H; [inversion H; subst|]; eapply Hm; eauto; discriminate.
Qed.
Lemma opJ_rget E {B} i (f : resource -> M B) : (forall r, opJ E (f r)) -> opJ E (r <- rget i; f r).
Proof. intros Hf w u w' Hj H N0. mrget H. eapply Hf; eauto. Qed.

Ltac jrm := repeat match goal with
  | H : J _ _ _ _ |- _ => progress (simpl in H; rewrite ?Nat.eqb_refl in H; simpl in H) end.

Lemma new_nth q ctx qty pkg w j w' : new_resource q ctx qty pkg w = (Ok j, w') ->
  exists r, nth_error (w_res w') j = Some r /\ r_ctx r = ctx /\ r_qty r = qty /\ w_comps w' = w_comps w /\ w_quals w' = w_quals w /\
   (forall k x, nth_error (w_res w) k = Some x -> nth_error (w_res w') k = Some x) /\ j = length (w_res w).
Proof.
  intros H. unfold new_resource in H. inversion H; subst. eexists. simpl. rewrite nth_error_app2, Nat.sub_diag by lia. simpl.
  split; [reflexivity|]. simpl. repeat split; auto. intros. now apply nth_app_old.
Qed.

Lemma J_rmod1 E N D w i f u w' r : J E N D w -> rmod i f w = (u, w') -> u <> UB -> nth_error (w_res w) i = Some r ->
  (forall r, r_tres (f r) = r_tres r) -> (forall r, r_obj (f r) = r_obj r) -> (forall r, r_state (f r) = r_state r) ->
  (forall r, r_ctx (f r) = r_ctx r) -> (forall r, r_tracked (f r) = r_tracked r) -> (forall r, r_qual (f r) = r_qual r) ->
  u = Ok tt /\ J E N (i :: D) w' /\ nth_error (w_res w') i = Some (f r) /\
  (forall k, k <> i -> nth_error (w_res w') k = nth_error (w_res w) k) /\
  w_comps w' = w_comps w /\ w_quals w' = w_quals w.
Proof.
  intros Hj H N0 Hr F1 F2 F3 F4 F5 F6. pose proof (J_rmod _ _ _ _ _ _ _ _ Hj H N0 F1 F2 F3 F4 F5 F6) as J1.
  apply rmod_inv in H as [x [Hx [-> ->]]]; auto. rewrite Hr in Hx. inversion Hx; subst x.
  split; auto. split; auto. split; [simpl; apply nth_upd_same; eapply nth_error_lt; eauto|].
  split; [intros k0 Hk0; simpl; apply nth_upd_other; auto|]. split; reflexivity.
Qed.

Ltac jrmod H Hj Hr J' Hr' Ho Hc Hq :=
  let u := fresh "u" in let w1 := fresh "w" in let H1 := fresh "H" in let e := fresh "e" in
  apply bind_inv in H as [[u [w1 [H1 H]]]|[[e [H1 H]]|[H1 H]]];
  [ destruct (J_rmod1 _ _ _ _ _ _ _ _ _ Hj H1 ltac:(discriminate) Hr ltac:(reflexivity) ltac:(reflexivity) ltac:(reflexivity)
      ltac:(reflexivity) ltac:(reflexivity) ltac:(reflexivity)) as [_ [J' [Hr' [Ho [Hc Hq]]]]]
  | apply rmod_inv in H1 as [? [_ [H1 _]]]; discriminate
  | exfalso; congruence ].

Lemma assoc_app_some s z l l' : assoc s l = Some z -> assoc s (l ++ l') = Some z.
Proof. induction l as [|[k v] l IH]; simpl; intros H; [discriminate|]. destruct (String.eqb s k); auto. Qed.
Lemma assoc_app_none s l l' : assoc s l = None -> assoc s (l ++ l') = assoc s l'.
Proof. induction l as [|[k v] l IH]; simpl; intros H; auto. destruct (String.eqb s k); [discriminate|auto]. Qed.

Ltac jrmod1 H Hj Hr :=
  pose proof (J_rmod1 _ _ _ _ _ _ _ _ _ Hj H ltac:(discriminate) Hr ltac:(reflexivity) ltac:(reflexivity) ltac:(reflexivity)
      ltac:(reflexivity) ltac:(reflexivity) ltac:(reflexivity)) as [_ [? _]].

(** ** Creation *)
Lemma mat_create_J E a q c p w u w' x : nth_error (w_comps w) c = Some x -> J E None [] w -> mat_create E a q c p w = (u, w') -> u <> UB ->
  J E None [] w'.
Proof.
  intros Hc Hj H N0. unfold mat_create in H. mbind H; [|discriminate].
  destruct (new_nth _ _ _ _ _ _ _ H0) as [r [Hr [Cr _]]].
  apply (J_new E [] w (QMat c) true q p) in H0 as [J1 _]; auto.
  2:{ intros c0 E0. inversion E0; subst. eauto. }
  2:{ intros; discriminate. }
  mbind H.
  - inversion H; subst. eapply (tr_create_J E a [] w0 a0); eauto. discriminate.
  - eapply tr_create_J in H0; eauto; [|discriminate]. destruct H0; discriminate.
Qed.

Lemma prod_create_J E a q s p : opJ E (prod_create E a q s p).
Proof.
  intros w u w' Hj H N0. unfold prod_create in H. mget H. mbind H; [|destruct (assoc s (w_quals w)); discriminate].
  assert (J1 : J E None [] w0 /\ exists z, assoc s (w_quals w0) = Some z).
  { destruct (assoc s (w_quals w)) as [z|] eqn:A.
    - inversion H0; subst. split; eauto.
    - mbind H0; [|discriminate]. inversion H1; subst; clear H1. inversion H0; subst; clear H0. split.
      + eapply J_frame_db; [..|exact Hj]; auto; simpl.
        * unfold res_rows. rewrite flat_map_app. simpl. now rewrite app_nil_r.
        * intros. rewrite in_app_iff. simpl. split; [intros [?|[?|[]]]; [auto|discriminate]|auto].
        * eauto.
        * intros s0 z0 A0. now apply assoc_app_some.
      + simpl. exists (w_next_qual w). rewrite assoc_app_none by auto. simpl. now rewrite String.eqb_refl. }
  destruct J1 as [J1 Q1]. clear H0. mbind H; [|discriminate].
  destruct (new_nth _ _ _ _ _ _ _ H0) as [r [Hr [Cr _]]].
  apply (J_new E [] w0 (QProd s) true q p) in H0 as [J2 _]; auto.
  2:{ intros; discriminate. }
  2:{ intros s0 _ E0. inversion E0; subst. auto. }
  mbind H.
  - inversion H; subst. eapply (tr_create_J E a [] w1 a1); eauto. discriminate.
  - eapply tr_create_J in H0; eauto; [|discriminate]. destruct H0; discriminate.
Qed.

(** ** Extraction *)
Lemma J_qual E N D w i n r x : J E N D w -> nth_error (w_res w) i = Some r -> nth_error (w_comps w) n = Some x ->
  J E N (i :: D) (set_res (upd (w_res w) i (with_qual (QMat n) r)) w).
Proof.
  intros Hj Hi Hx. apply (J_upd E N D w i r (with_qual (QMat n))); auto.
  - intros Hc. simpl. eapply j_trk; eauto.
  - simpl; intros; discriminate.
  - simpl. intros c E0. inversion E0; subst. eauto.
Qed.

(** The common end of the extraction functions: quantity already reduced, the new resource is made. *)
Lemma extract_tail_J E D w i r q qty pkg prev u w' : J E None D w -> (forall k, In k D -> k = i) -> nth_error (w_res w) i = Some r ->
  (forall c, q = QMat c -> exists x, nth_error (w_comps w) c = Some x) ->
  (forall s, r_ctx r = true -> q = QProd s -> exists z, assoc s (w_quals w) = Some z) ->
  (j <- new_resource q (r_ctx r) qty pkg; (match prev with Some p => rmod j (with_prev p) | None => ret tt end);; tr_extract E i j;; ret j) w = (u, w') -> u <> UB ->
  J E None [] w'.
Proof.
  intros Hj HD Hi P Q H N0. mbind H; [|discriminate]. rename a into j.
  destruct (new_nth _ _ _ _ _ _ _ H0) as [n [Hn [Cn [_ [_ [_ [Old Ej]]]]]]].
  apply (J_new E D w q (r_ctx r) qty pkg) in H0 as [J1 _]; auto.
  assert (Li := nth_error_lt _ _ _ Hi). assert (Hne : i <> j) by lia. clear Ej.
  assert (Hi0 := Old _ _ Hi).
  assert (exists n2 w2, nth_error (w_res w2) j = Some n2 /\ r_ctx n2 = r_ctx r /\ nth_error (w_res w2) i = Some r /\
    J E (if r_ctx r then Some j else None) (j :: D) w2 /\ (tr_extract E i j;; ret j) w2 = (u, w')) as [n2 [w2 [Hn2 [Cn2 [Hi2 [J2 H2]]]]]].
  { destruct prev as [p|].
    - jrmod H J1 Hn J' Hr' Ho Hc Hq. exists (with_prev p n), w1. rewrite (Ho _ Hne). split; [exact Hr'|]. split; [exact Cn|]. split; [exact Hi0|]. split; [exact J'|exact H].
    - change ((tr_extract E i j;; ret j) w0 = (u, w')) in H. exists n, w0. split; auto. split; auto. split; auto. split; auto.
      eapply J_weaken; [|exact J1]. simpl; auto. }
  clear H. mbind H2.
  - inversion H2; subst. destruct (tr_extract_J E (j :: D) w2 i j r n2 _ _ J2 Hn2 Hi2 Cn2 Hne H ltac:(discriminate)) as [_ [J3 _]].
    eapply J_weaken; [|exact J3]. intros k Hk. rewrite !rm_In in Hk. simpl in Hk.
    destruct Hk as [[[Hk|Hk] ?] ?]; [congruence|]. apply HD in Hk. congruence.
  - destruct (tr_extract_J E (j :: D) w2 i j r n2 _ _ J2 Hn2 Hi2 Cn2 Hne H ltac:(discriminate)) as [? _]. discriminate.
Qed.

Lemma mat_extract_comp_J E i q c t w u w' x : nth_error (w_comps w) c = Some x -> J E None [] w ->
  mat_extract_comp E i q c t w = (u, w') -> u <> UB -> J E None [] w'.
Proof.
  intros Hx Hj H N0. unfold mat_extract_comp in H. mrget H. rename x0 into r.
  mbind H; [|unfold mat_comp_ptr in H0; destruct (r_qual r); discriminate].
  assert (w0 = w /\ r_qual r = QMat a) as [-> Q].
  { unfold mat_comp_ptr in H0. destruct (r_qual r); inversion H0; auto. }
  destruct (Qltb (r_qty r) q); [inversion H; subst; auto|].
  mbind H.
  - assert (exists D r1, J E None D w0 /\ (forall k, In k D -> k = i) /\ nth_error (w_res w0) i = Some r1 /\ r_ctx r1 = r_ctx r /\
      exists y, nth_error (w_comps w0) c = Some y) as [D [r1 [J1 [HD [Hr1 [C1 [y Hy]]]]]]].
    { destruct (Nat.eqb a c).
      - inversion H1; subst. exists [], r. split; [exact Hj|]. split; [simpl; tauto|]. split; [exact Hn|]. split; [reflexivity|eauto].
      - mcref H1. mcref H1. mbind H1; [|discriminate]. unfold lift in H2. inversion H2; subst; clear H2.
        mbind H1; [|discriminate].
        assert (J1 := J_create_comp E None [] true _ _ _ _ Hj H2).
        destruct (create_from_mass_ptr _ _ _ _ _ H2) as [y Hy].
        apply create_from_mass_inv in H2 as [[_ [? _]]|[_ [Hnn ->]]]; [discriminate|].
        apply rmod_inv in H1 as [z [Hz [_ ->]]]; [|discriminate]. simpl in Hz. rewrite Hn in Hz. inversion Hz; subst z.
        eexists [i], _. split; [eapply J_qual; [exact J1|exact Hn|exact Hy]|]. split; [simpl; intuition|].
        simpl. rewrite nth_upd_same by (eapply nth_error_lt; eauto). split; [reflexivity|]. split; auto.
        exists x. now apply nth_app_old. }
    jrmod H J1 Hr1 J2 Hr2 Ho Hc Hq. mrget H. rewrite Hr2 in Hn0. inversion Hn0; subst x0.
    refine (extract_tail_J E (i :: D) w1 i _ (QMat c) q unpackaged_name (Some (r_prev r1)) u w' J2 _ Hr2 _ _ H N0).
    + intros k [?|?]; auto.
    + intros c0 E0. inversion E0; subst. rewrite Hc. eauto.
    + intros; discriminate.
  - destruct (Nat.eqb a c); [discriminate|]. mcref H1. mcref H1.
    apply bind_inv in H1 as [[v [wv [Hv H1]]]|[[e1 [Hv H1]]|[Hv H1]]]; [| |congruence].
    + unfold lift in Hv. inversion Hv; subst; clear Hv.
      apply bind_inv in H1 as [[n [wn [Hv H1]]]|[[e1 [Hv H1]]|[Hv H1]]]; [| |congruence].
      * apply rmod_inv in H1 as [? [_ [? _]]]; discriminate.
      * inversion H1; subst. exact (J_create_comp E None [] true _ _ _ _ Hj Hv).
    + unfold lift in Hv. inversion Hv; subst; auto.
Qed.

Lemma mat_extract_qty_J E i q : opJ E (mat_extract_qty E i q).
Proof.
  intros w u w' Hj H N0. unfold mat_extract_qty in H. mrget H. 
  mbind H; [|unfold mat_comp_ptr in H0; destruct (r_qual x); discriminate].
  assert (w0 = w /\ r_qual x = QMat a) as [-> Q].
  { unfold mat_comp_ptr in H0. destruct (r_qual x); inversion H0; auto. }
  destruct (j_ptr _ _ _ _ Hj _ _ _ Hn Q). eapply mat_extract_comp_J; eauto.
Qed.

Lemma prod_quality_inv r w u w' : prod_quality r w = (u, w') -> u <> UB -> exists s, u = Ok s /\ r_qual r = QProd s /\ w' = w.
Proof. unfold prod_quality. intros H N0. destruct (r_qual r); inversion H; subst; [congruence|eauto]. Qed.

Lemma prod_extract_J E i q : opJ E (prod_extract E i q).
Proof.
  intros w u w' Hj H N0. unfold prod_extract in H. mrget H. rename x into r.
  mbind H; [|apply prod_quality_inv in H0 as [? [? _]]; discriminate].
  apply prod_quality_inv in H0 as [s [Es [Q ->]]]; [|discriminate]. inversion Es; subst a.
  destruct (Qltb (r_qty r) q); [inversion H; subst; auto|].
  jrmod H Hj Hn J1 Hr1 Ho Hc Hq.
  refine (extract_tail_J E [i] w0 i _ (QProd s) q (r_pkg r) None u w' J1 _ Hr1 _ _ H N0).
  - simpl; intuition.
  - intros; discriminate.
  - intros s0 Hcc E0. inversion E0; subst. simpl in Hcc. rewrite Hq. eapply (j_qual _ _ _ _ Hj); eauto.
Qed.

(** ** Packaging *)
Lemma package_tail_J E w i r q qty pkg prev u w' : J E None [i] w -> nth_error (w_res w) i = Some r ->
  (forall c, q = QMat c -> exists x, nth_error (w_comps w) c = Some x) ->
  (forall s, r_ctx r = true -> q = QProd s -> exists z, assoc s (w_quals w) = Some z) ->
  (j <- new_resource q (r_ctx r) qty pkg; (match prev with Some p => rmod j (with_prev p) | None => ret tt end);;
   tr_package E j (Some i);; r' <- rget i; (if Qltb (e_eps E) (r_qty r') then tr_modify E i else ret tt);; ret j) w = (u, w') -> u <> UB ->
  J E None [] w'.
Proof.
  intros Hj Hi P Q H N0. mbind H; [|discriminate]. rename a into j.
  destruct (new_nth _ _ _ _ _ _ _ H0) as [n [Hn [Cn [_ [_ [_ [Old Ej]]]]]]].
  apply (J_new E [i] w q (r_ctx r) qty pkg) in H0 as [J1 _]; auto.
  assert (Li := nth_error_lt _ _ _ Hi). assert (Hne : i <> j) by lia. clear Ej.
  assert (Hi0 := Old _ _ Hi).
  set (rest := r' <- rget i; (if Qltb (e_eps E) (r_qty r') then tr_modify E i else ret tt);; ret j) in *.
  assert (exists n2 w2, nth_error (w_res w2) j = Some n2 /\ r_ctx n2 = r_ctx r /\ nth_error (w_res w2) i = Some r /\
    J E (if r_ctx r then Some j else None) [j; i] w2 /\ (tr_package E j (Some i);; rest) w2 = (u, w')) as [n2 [w2 [Hn2 [Cn2 [Hi2 [J2 H2]]]]]].
  { destruct prev as [p|].
    - jrmod H J1 Hn J' Hr' Ho Hc Hq. exists (with_prev p n), w1. rewrite (Ho _ Hne). split; [exact Hr'|]. split; [exact Cn|]. split; [exact Hi0|]. split; [exact J'|exact H].
    - change ((tr_package E j (Some i);; rest) w0 = (u, w')) in H. exists n, w0. split; auto. split; auto. split; auto. split; auto.
      eapply J_weaken; [|exact J1]. simpl; intuition. }
  clear H. rewrite <- Cn2 in J2. mbind H2.
  - destruct (tr_package_Some_J E [j; i] w2 j i n2 r _ _ J2 Hn2 Hi2 (eq_sym Cn2) Hne H ltac:(discriminate)) as [_ [J3 S3]].
    unfold rest in H2. mrget H2. destruct (Qltb (e_eps E) (r_qty x)) eqn:Q0.
    + mbind H2.
      * inversion H2; subst. destruct (tr_modify_J E None _ _ i x _ _ J3 Hn0 ltac:(discriminate) H0 ltac:(discriminate)) as [_ [J4 _]].
        eapply J_weaken; [|exact J4]. intros k Hk. rewrite !rm_In in Hk. simpl in Hk. intuition congruence.
      * destruct (tr_modify_J E None _ _ i x _ _ J3 Hn0 ltac:(discriminate) H0 ltac:(discriminate)) as [? _]. discriminate.
    + mbind H2; [|discriminate]. inversion H0; subst. inversion H2; subst.
      eapply J_clean; [exact J3|]. intros k y Hk Hy. rewrite !rm_In in Hk. simpl in Hk.
      assert (k = i) by intuition congruence. subst k. rewrite Hn0 in Hy. inversion Hy; subst. right.
      unfold Qltb in Q0. apply negb_false_iff, Qle_bool_iff in Q0. exact Q0.
  - destruct (tr_package_Some_J E [j; i] w2 j i n2 r _ _ J2 Hn2 Hi2 (eq_sym Cn2) Hne H ltac:(discriminate)) as [? _]. discriminate.
Qed.

Lemma mat_package_extract_J E i q pkg : opJ E (mat_package_extract E i q pkg).
Proof.
  intros w u w' Hj H N0. unfold mat_package_extract in H. mrget H. rename x into r.
  mbind H; [|unfold mat_comp_ptr in H0; destruct (r_qual r); discriminate].
  assert (w0 = w /\ r_qual r = QMat a) as [-> Q].
  { unfold mat_comp_ptr in H0. destruct (r_qual r); inversion H0; auto. }
  destruct (Qltb _ _); [inversion H; subst; auto|].
  jrmod H Hj Hn J1 Hr1 Ho Hc Hq.
  refine (package_tail_J E w0 i _ (QMat a) q pkg (Some (r_prev r)) u w' J1 Hr1 _ _ H N0).
  - intros c E0. inversion E0; subst. rewrite Hc. eapply (j_ptr _ _ _ _ Hj); eauto.
  - intros; discriminate.
Qed.
Lemma prod_package_extract_J E i q pkg : opJ E (prod_package_extract E i q pkg).
Proof.
  intros w u w' Hj H N0. unfold prod_package_extract in H. mrget H. rename x into r.
  mbind H; [|apply prod_quality_inv in H0 as [? [? _]]; discriminate].
  apply prod_quality_inv in H0 as [s [Es [Q ->]]]; [|discriminate]. inversion Es; subst a.
  destruct (Qltb _ _); [inversion H; subst; auto|].
  jrmod H Hj Hn J1 Hr1 Ho Hc Hq.
  refine (package_tail_J E w0 i _ (QProd s) q pkg None u w' J1 Hr1 _ _ H N0).
  - intros; discriminate.
  - intros s0 Hcc E0. inversion E0; subst. simpl in Hcc. rewrite Hq. eapply (j_qual _ _ _ _ Hj); eauto.
Qed.
Lemma package_extract_J E i q pkg : opJ E (package_extract E i q pkg).
Proof.
  unfold package_extract. apply opJ_rget. intros r. destruct (r_qual r); [apply mat_package_extract_J|apply prod_package_extract_J].
Qed.
Lemma package_loop_J E i n fills : opJ E (package_loop E i n fills).
Proof.
  induction fills as [|f fs IH]; simpl; intros w u w' Hj H N0.
  - inversion H; subst; auto.
  - mbind H.
    + assert (J1 := package_extract_J E i f n _ _ _ Hj H0 ltac:(discriminate)). mbind H.
      * inversion H; subst. eapply IH; eauto. discriminate.
      * eapply IH; eauto. discriminate.
    + eapply package_extract_J; eauto. discriminate.
Qed.
Lemma res_package_J E i p s : opJ E (res_package E i p s).
Proof.
  unfold res_package. apply opJ_rget. intros r. destruct (get_fill_mass _ _ _ _) as [[[fills|e|] rest]|].
  - apply package_loop_J.
  - intros w u w' Hj H N0. inversion H; subst; auto.
  - intros w u w' Hj H N0. inversion H; subst; congruence.
  - intros w u w' Hj H N0. inversion H; subst; congruence.
Qed.

Lemma pkg_modify_J E i p w u w' : J E None [] w -> (rmod i (with_pkg p);; tr_package E i None) w = (u, w') -> u <> UB -> J E None [] w'.
Proof.
  intros Hj H N0. apply bind_inv in H as [[u1 [w1 [H1 H]]]|[[e [H1 H]]|[H1 H]]]; [| |congruence].
  2:{ apply rmod_inv in H1 as [? [_ [? _]]]; discriminate. }
  pose proof H1 as H1'. apply rmod_inv in H1' as [r [Hr _]]; [|discriminate].
  destruct (J_rmod1 _ _ _ _ _ _ _ _ _ Hj H1 ltac:(discriminate) Hr ltac:(reflexivity) ltac:(reflexivity) ltac:(reflexivity)
      ltac:(reflexivity) ltac:(reflexivity) ltac:(reflexivity)) as [_ [J1 [Hr1 _]]].
  destruct (tr_package_None_J E [i] w1 i _ _ _ J1 Hr1 H N0) as [_ [J2 _]].
  eapply J_weaken; [|exact J2]. intros k Hk. rewrite !rm_In in Hk. simpl in Hk. intuition congruence.
Qed.

Lemma get_package_inv E n w u w' : get_package E n w = (u, w') -> w' = w.
Proof.
  unfold get_package. destruct (String.eqb n unpackaged_name); [intros H; inversion H; auto|].
  destruct (find _ (e_pkgs E)) as [[? ?]|]; intros H; inversion H; auto.
Qed.
Lemma mat_qual_unpkg E i w u w' r c : J E None [] w -> nth_error (w_res w) i = Some r -> r_qual r = QMat c ->
  rmod i (with_pkg unpackaged_name) w = (u, w') -> u <> UB -> J E None [] w'.
Proof.
  intros Hj Hr Q H N0.
  pose proof (J_rmod1 _ _ _ _ _ _ _ _ _ Hj H N0 Hr ltac:(reflexivity) ltac:(reflexivity) ltac:(reflexivity)
      ltac:(reflexivity) ltac:(reflexivity) ltac:(reflexivity)) as [_ [J1 _]].
  apply rmod_inv in H as [x [Hx [_ ->]]]; auto. rewrite Hr in Hx. inversion Hx; subst x.
  pose proof (j_last _ _ _ _ Hj) as JL. pose proof (j_last _ _ _ _ J1) as JL1.
  destruct J1. constructor; auto. intros k y Hk Hc HN _ Hq. simpl in Hk. destruct (Nat.eq_dec i k); [subst|].
  - rewrite nth_upd_same in Hk by (eapply nth_error_lt; eauto). inversion Hk; subst y.
    destruct (JL k r Hr Hc HN ltac:(auto) Hq) as [z [Hl [M1 [M2 [M3 [M4 M5]]]]]]. exists z. split; auto.
    repeat split; auto. right. rewrite M4, Q. auto.
  - apply (JL1 k y); auto. intros [A|[]]; congruence.
Qed.

Lemma change_package_J E i p : opJ E (change_package E i p).
Proof.
  intros w u w' Hj H N0. unfold change_package in H. mrget H. rename x into r. destruct (r_qual r) eqn:Q.
  - unfold mat_change_package in H. mrget H. rewrite Hn in Hn0. inversion Hn0; subst x.
    destruct (negb (r_ctx r)); [inversion H; subst; auto|].
    destruct (String.eqb p unpackaged_name) eqn:Ep.
    + apply String.eqb_eq in Ep. subst p. eapply mat_qual_unpkg; eauto.
    + mbind H.
      * apply get_package_inv in H0; subst w0. destruct (_ && _); [|inversion H; subst; auto]. eapply pkg_modify_J; eauto.
      * apply get_package_inv in H0; subst w'. auto.
  - unfold prod_change_package in H. mrget H. rewrite Hn in Hn0. inversion Hn0; subst x.
    destruct (_ || _); [inversion H; subst; auto|].
    destruct (String.eqb p unpackaged_name) eqn:Ep; [eapply pkg_modify_J; eauto|].
    mbind H.
    * apply get_package_inv in H0; subst w0. destruct (_ && _); [|inversion H; subst; auto]. eapply pkg_modify_J; eauto.
    * apply get_package_inv in H0; subst w'. auto.
Qed.

(** ** Transmutation and decay *)
Lemma mat_transmute_J E D i c w u w' x : J E None D w -> (forall k, In k D -> k = i) -> nth_error (w_comps w) c = Some x ->
  mat_transmute E i c w = (u, w') -> u <> UB -> J E None [] w'.
Proof.
  intros Hj HD Hx H N0. unfold mat_transmute in H.
  mrmod H. rename x0 into r. assert (J1 := J_qual E None D w i c r x Hj Hn Hx).
  mbind H.
  2:{ destruct (tr_modify_J E None _ _ i (with_qual (QMat c) r) _ _ J1 ltac:(simpl; apply nth_upd_same; eapply nth_error_lt; eauto) ltac:(discriminate) H0 ltac:(discriminate)) as [? _]. discriminate. }
  destruct (tr_modify_J E None _ _ i (with_qual (QMat c) r) _ _ J1 ltac:(simpl; apply nth_upd_same; eapply nth_error_lt; eauto) ltac:(discriminate) H0 ltac:(discriminate)) as [_ [J2 _]].
  assert (J3 : J E None [] w0).
  { eapply J_weaken; [|exact J2]. intros k Hk. rewrite !rm_In in Hk. simpl in Hk. destruct Hk as [[?|Hk] ?]; [congruence|]. apply HD in Hk. congruence. }
  mrget H. mget H. destruct (_ && _); [|inversion H; subst; auto].
  pose proof (J_rmod1 _ _ _ _ _ _ _ _ _ J3 H N0 Hn0 ltac:(reflexivity) ltac:(reflexivity) ltac:(reflexivity)
      ltac:(reflexivity) ltac:(reflexivity) ltac:(reflexivity)) as [_ [J4 _]].
  apply rmod_inv in H as [y [Hy [_ ->]]]; auto. rewrite Hn0 in Hy. inversion Hy; subst y.
  pose proof (j_last _ _ _ _ J3) as JL. pose proof (j_last _ _ _ _ J4) as JL1.
  destruct J4. constructor; auto. intros k y Hk Hc HN _ Hq. simpl in Hk. destruct (Nat.eq_dec i k); [subst|].
  - rewrite nth_upd_same in Hk by (eapply nth_error_lt; eauto). inversion Hk; subst y.
    destruct (JL k x0 Hn0 Hc HN ltac:(auto) Hq) as [z [Hl M]]. exists z. split; auto.
  - apply (JL1 k y); auto. intros [A|[]]; congruence.
Qed.

(** Decay lines only point to existing compositions. *)
Definition LV (w : world) : Prop := Forall (Forall (fun p : Z * nat => (snd p < length (w_comps w))%nat)) (w_lines w).
Lemma LV_mono w w' : (length (w_comps w) <= length (w_comps w'))%nat -> w_lines w' = w_lines w -> LV w -> LV w'.
Proof.
  unfold LV. intros A -> H. eapply Forall_impl; [|exact H]. intros l Hl. eapply Forall_impl; [|exact Hl]. simpl; intros; lia.
Qed.
Lemma LV_rmod i f : pinv LV (rmod i f).
Proof. intros w r w' Hw H N. apply rmod_inv in H as [x [_ [_ ->]]]; auto. Qed.
Lemma LV_modify f : (forall w, w_comps (f w) = w_comps w) -> (forall w, w_lines (f w) = w_lines w) -> pinv LV (modify f).
Proof. intros A B. apply pinv_modify. intros w. unfold LV. now rewrite A, B. Qed.
Lemma LV_emit d : pinv LV (emit d).
Proof. apply LV_modify; reflexivity. Qed.
Lemma LV_new q c y p : pinv LV (new_resource q c y p).
Proof. intros w r w' Hw H N. unfold new_resource in H. inversion H; subst. exact Hw. Qed.
Lemma LV_comp_new a m : pinv LV (comp_new a m).
Proof.
  intros w r w' Hw H N. inversion H; subst. unfold LV. simpl. apply Forall_app. split.
  - apply (LV_mono w (set_comps (w_comps w ++ [mkComp (w_next_comp w) a m false 0 (length (w_lines w))]) w)); auto. simpl. rewrite app_length. lia.
  - repeat constructor.
Qed.
Lemma LV_comp_new_in_line a p l : pinv LV (comp_new_in_line a p l).
Proof. intros w r w' Hw H N. inversion H; subst. eapply LV_mono; [| |exact Hw]; simpl; auto. rewrite app_length. lia. Qed.
Lemma LV_bump i : pinv LV (bump_state i).
Proof.
  intros w r w' Hw H N. unfold bump_state in H.
  assert (P : pinv LV (rmod i (with_state (w_next_state w));; modify (fun w => set_next_state (w_next_state w + 1)%Z w))).
  { apply pinv_bind; [now apply LV_rmod|intros; now apply LV_modify]. }
  eapply P; eauto.
Qed.
Lemma LV_clone i : pinv LV (res_clone i).
Proof.
  intros w r w' Hw H N. unfold res_clone in H. mrget H. mget H.
  apply bind_inv in H as [[u [w1 [H1 H]]]|[[e [H1 H]]|[H1 H]]]; [|discriminate|discriminate].
  inversion H1; subst; clear H1. inversion H; subst; clear H. exact Hw.
Qed.
Lemma LV_comp_record E c : pinv LV (comp_record E c).
Proof.
  unfold comp_record. apply pinv_bind; [apply pinv_cref|]. intros x. destruct (c_recorded x); [apply pinv_ret|].
  apply pinv_bind; [|intros; now apply LV_modify]. intros w r w' Hw H N. unfold cmod in H. mcref H. inversion H; subst.
  eapply LV_mono; [| |exact Hw]; simpl; auto. rewrite upd_length. lia.
Qed.
Lemma zset_Forall {A} (P : Z * A -> Prop) k v m : P (k, v) -> Forall P m -> Forall P (zset k v m).
Proof.
  intros Hv. induction 1 as [|[k0 v0] t H0 Ht IH]; simpl; auto. destruct (k <? k0)%Z; [auto|destruct (k =? k0)%Z; auto].
Qed.
Lemma zfind_In {A} k (m : zmap A) v : zfind k m = Some v -> In (k, v) m.
Proof.
  induction m as [|[k0 v0] t IH]; simpl; [discriminate|]. destruct (Z.eqb_spec k k0); intros H; [inversion H; subst; auto|auto].
Qed.
Lemma comp_decay_inv E c d s w r w' : comp_decay E c d s w = (r, w') -> r <> UB ->
  exists x line, nth_error (w_comps w) c = Some x /\ nth_error (w_lines w) (c_line x) = Some line /\
   ((exists n, zfind (c_prev x + d) line = Some n /\ r = Ok n /\ w' = w) \/
    (zfind (c_prev x + d) line = None /\ r = Ok (length (w_comps w)) /\
     let a := match comp_atom E x with [] => [] | a => decayed_atoms E a (s * d) end in
     w' = set_lines (upd (w_lines w) (c_line x) (zset (c_prev x + d)%Z (length (w_comps w)) line))
            (set_next_comp (w_next_comp w + 1)%Z (set_comps (w_comps w ++ [mkComp (w_next_comp w) a [] false (c_prev x + d) (c_line x)]) w)))).
Proof.
  intros H N. unfold comp_decay in H. mcref H. mget H.
  apply bind_inv in H as [[line [wl [H1 H]]]|[[e [H1 H]]|[H1 H]]]; [| |congruence].
  2:{ unfold deref in H1. destruct (nth_error (w_lines w) (c_line x)); inversion H1; subst; congruence. }
  unfold deref in H1. destruct (nth_error (w_lines w) (c_line x)) eqn:El; inversion H1; subst; clear H1.
  exists x, line. split; auto. split; auto. destruct (zfind _ line) eqn:Z0.
  - inversion H; subst. left. eauto.
  - right. split; auto. unfold new_decay in H.
    destruct (comp_atom E x); (apply bind_inv in H as [[di [w2 [H1 H]]]|[[e [H1 H]]|[H1 H]]]; [|discriminate|discriminate];
    inversion H1; subst; clear H1; inversion H; subst; split; auto).
Qed.
Lemma LV_comp_decay E c d s : pinv LV (comp_decay E c d s).
Proof.
  intros w r w' Hw H N. apply comp_decay_inv in H as [x [line [Hx [Hl [[n [_ [_ ->]]]|[_ [_ ->]]]]]]]; auto.
  unfold LV in *. simpl. assert (K : Forall (Forall (fun p : Z * nat => (snd p < length (w_comps w ++ [mkComp (w_next_comp w) match comp_atom E x with [] => [] | a => decayed_atoms E a (s * d) end [] false (c_prev x + d) (c_line x)]))%nat)) (w_lines w)).
  { eapply Forall_impl; [|exact Hw]. intros l Hll. eapply Forall_impl; [|exact Hll]. rewrite app_length; simpl; intros; lia. }
  apply Forall_upd; auto. apply zset_Forall; [simpl; rewrite app_length; simpl; lia|].
  rewrite Forall_forall in K. apply K. eapply nth_error_In; eauto.
Qed.
#[export] Hint Resolve LV_rmod LV_emit LV_new LV_comp_new LV_comp_new_in_line LV_bump LV_clone LV_comp_record LV_comp_decay : pinv.
#[export] Hint Extern 1 (pinv LV (modify _)) => (apply LV_modify; reflexivity) : pinv.
Lemma LV_qual_id q : pinv LV (qual_id q).
Proof. unfold qual_id. pinv_tac. Qed.
#[export] Hint Resolve LV_qual_id : pinv.
Lemma LV_tr_record E b i : pinv LV (tr_record E b i).
Proof. unfold tr_record, res_record. pinv_tac. Qed.
#[export] Hint Resolve LV_tr_record : pinv.
Lemma LV_mat_decay E i t : pinv LV (mat_decay E i t).
Proof. unfold mat_decay, mat_transmute, tr_modify. cbv zeta. pinv_tac. Qed.
#[export] Hint Resolve LV_mat_decay : pinv.
Lemma LV_mat_comp E i : pinv LV (mat_comp E i).
Proof. unfold mat_comp. pinv_tac. Qed.
#[export] Hint Resolve LV_mat_comp : pinv.
Lemma LV_package_extract E i q p : pinv LV (package_extract E i q p).
Proof. unfold package_extract, mat_package_extract, prod_package_extract, tr_package, tr_modify. pinv_tac. Qed.
#[export] Hint Resolve LV_package_extract : pinv.
Lemma LV_package_loop E i n fills : pinv LV (package_loop E i n fills).
Proof. induction fills; simpl; pinv_tac. Qed.
#[export] Hint Resolve LV_package_loop : pinv.
Lemma LV_step E o : pinv LV (step E o).
Proof.
  destruct o; simpl; unfold drop, valid_comp, mat_only, mat_create, mat_create_untracked, prod_create,
    prod_create_untracked, extract_res, mat_extract_qty, mat_extract_comp, prod_extract, absorb, mat_absorb, prod_absorb, res_decay,
    res_package, change_package, mat_change_package, prod_change_package, create_from_mass, create_from_atom, mat_transmute,
    tr_create, tr_extract, tr_absorb, tr_package, tr_modify; cbv zeta; pinv_tac.
Qed.

Lemma comp_decay_ptr E c d s w n w' : LV w -> comp_decay E c d s w = (Ok n, w') -> exists x, nth_error (w_comps w') n = Some x.
Proof.
  intros Hw H. apply comp_decay_inv in H as [x [line [Hx [Hl [[m [Z0 [Em ->]]]|[_ [Em ->]]]]]]]; [| |discriminate]; inversion Em; subst.
  - apply zfind_In in Z0. unfold LV in Hw. rewrite Forall_forall in Hw. apply nth_error_In in Hl. specialize (Hw _ Hl).
    rewrite Forall_forall in Hw. specialize (Hw _ Z0). simpl in Hw.
    destruct (nth_error (w_comps w) m) eqn:G; eauto. apply nth_error_None in G. lia.
  - simpl. eexists. apply nth_app_new.
Qed.

Lemma mat_decay_J E i t w u w' : J E None [] w -> LV w -> mat_decay E i t w = (u, w') -> u <> UB -> J E None [] w'.
Proof.
  intros Hj L H N0. unfold mat_decay in H. mrget H. rename x into r.
  mbind H; [|unfold mat_comp_ptr in H0; destruct (r_qual r); discriminate].
  assert (w0 = w) as ->. { unfold mat_comp_ptr in H0. destruct (r_qual r); inversion H0; auto. }
  destruct (_ && _); [inversion H; subst; auto|]. destruct (_ && _); [inversion H; subst; auto|].
  mget H. destruct (_ =? _)%Z; [inversion H; subst; auto|]. mcref H. destruct (_ || _); [|inversion H; subst; auto].
  cbv zeta in H.
  jrmod H Hj Hn J1 Hr1 Ho Hcc Hq.
  match goal with R : rmod i _ w = _ |- _ => pose proof (LV_rmod _ _ _ _ _ L R ltac:(discriminate)) as L0 end.
  clear H1. apply bind_inv in H as [[d [w1 [H1 H]]]|[[e [H1 H]]|[H1 H]]]; [| |congruence].
  2:{ apply comp_decay_phys in H1 as [[? ?] _]; discriminate. }
  destruct (comp_decay_ptr _ _ _ _ _ _ _ L0 H1) as [y Hy].
  assert (J2 := J_comp_decay _ _ _ _ _ _ _ _ _ J1 H1 ltac:(discriminate)).
  eapply mat_transmute_J; [exact J2| |exact Hy|exact H|auto]. simpl; intuition.
Qed.

Lemma mat_comp_J E i w u w' : J E None [] w -> LV w -> mat_comp E i w = (u, w') -> u <> UB -> J E None [] w'.
Proof.
  intros Hj L H N0. unfold mat_comp in H. mrget H. mbind H.
  - assert (J1 : J E None [] w0).
    { destruct (_ && _); [eapply mat_decay_J; eauto; discriminate|inversion H0; subst; auto]. }
    mrget H. unfold mat_comp_ptr in H. destruct (r_qual x0); inversion H; subst; auto.
  - destruct (_ && _); [eapply mat_decay_J; eauto; discriminate|discriminate].
Qed.

(** ** Absorption *)
Lemma absorb_tail_J E D w i j a b u w' : 0 <= e_eps E -> J E None D w -> (forall k, In k D -> k = i) ->
  nth_error (w_res w) i = Some a -> nth_error (w_res w) j = Some b ->
  (rmod i (fun r => with_qty (r_qty r + r_qty b) r);; rmod j (with_qty 0);; tr_absorb E i j) w = (u, w') -> u <> UB ->
  J E None [] w'.
Proof.
  intros He Hj HD Ha Hb H N0. jrmod H Hj Ha J1 Ha1 Ho Hc Hq. clear H0.
  assert (exists b1, nth_error (w_res w0) j = Some b1) as [b1 Hb1].
  { destruct (Nat.eq_dec j i); [subst; eauto|]. rewrite Ho by auto. eauto. }
  jrmod H J1 Hb1 J2 Hb2 Ho2 Hc2 Hq2.
  assert (exists a2, nth_error (w_res w1) i = Some a2) as [a2 Ha2].
  { destruct (Nat.eq_dec i j); [subst; eauto|]. rewrite Ho2 by auto. eauto. }
  destruct (tr_absorb_J E (j :: i :: D) w1 i j a2 _ _ J2 Ha2 H N0) as [_ [J3 S3]].
  destruct (sp_nth _ _ _ _ S3 Hb2) as [b3 [Hb3 P3]].
  eapply J_clean; [exact J3|]. intros k r Hk Hr. rewrite rm_In in Hk. simpl in Hk.
  assert (k = j) by (destruct Hk as [[?|[?|Hk]] ?]; [auto|congruence|apply HD in Hk; congruence]). subst k.
  rewrite Hb3 in Hr. inversion Hr; subst. right. apply (f_equal ph_qty) in P3. simpl in P3. rewrite P3. exact He.
Qed.

Lemma mat_absorb_J E i j w u w' : 0 <= e_eps E -> J E None [] w -> LV w -> mat_absorb E i j w = (u, w') -> u <> UB -> J E None [] w'.
Proof.
  intros He Hj L H N0. unfold mat_absorb in H.
  mbind H; [|eapply mat_comp_J; eauto; discriminate].
  assert (J1 := mat_comp_J _ _ _ _ _ Hj L H0 ltac:(discriminate)).
  assert (L1 := LV_mat_comp _ _ _ _ _ L H0 ltac:(discriminate)). clear H0.
  mbind H; [|eapply mat_comp_J; eauto; discriminate].
  assert (J2 := mat_comp_J _ _ _ _ _ J1 L1 H0 ltac:(discriminate)). clear H0.
  mbind H.
  - assert (exists D, J E None D w2 /\ (forall k, In k D -> k = i)) as [D [J3 HD]].
    { destruct (Nat.eqb a a0); [inversion H0; subst; exists []; split; auto; simpl; tauto|].
      mcref H0. mcref H0. mrget H0. mrget H0. cbv zeta in H0. mbind H0; [|discriminate].
      assert (J3 := J_create_comp E None [] true _ _ _ _ J2 H1).
      destruct (create_from_mass_ptr _ _ _ _ _ H1) as [y Hy].
      apply rmod_inv in H0 as [z [Hz [_ ->]]]; [|discriminate].
      exists [i]. split; [eapply J_qual; [exact J3|exact Hz|exact Hy]|simpl; intuition]. }
    mrget H. rename x into ra. mrget H. rename x into rb.
    mbind H.
    + assert (exists D', J E None D' w3 /\ (forall k, In k D' -> k = i)) as [D' [J4 HD']].
      { destruct (Qltb (r_qty ra) (r_qty rb)); [|inversion H1; subst; eauto].
        jrmod1 H1 J3 Hn. exists (i :: D). split; auto. simpl. intros k [?|?]; auto. }
      assert (exists ra', nth_error (w_res w3) i = Some ra') as [ra' Hra'].
      { destruct (Qltb (r_qty ra) (r_qty rb)); [|inversion H1; subst; eauto].
        apply rmod_inv in H1 as [z [Hz [_ ->]]]; [|discriminate]. eexists. simpl. apply nth_upd_same. eapply nth_error_lt; eauto. }
      assert (exists rb', nth_error (w_res w3) j = Some rb' /\ r_qty rb' = r_qty rb) as [rb' [Hrb' Eqb]].
      { destruct (Qltb (r_qty ra) (r_qty rb)); [|inversion H1; subst; eauto].
        apply rmod_inv in H1 as [z [Hz [_ ->]]]; [|discriminate]. simpl. destruct (Nat.eq_dec i j); [subst|].
        - rewrite nth_upd_same by (eapply nth_error_lt; eauto). rewrite Hn0 in Hz. inversion Hz; subst. eexists. split; [reflexivity|]. reflexivity.
        - rewrite nth_upd_other by auto. eauto. }
      rewrite <- Eqb in H. eapply absorb_tail_J; [exact He|exact J4|exact HD'|exact Hra'|exact Hrb'|exact H|auto].
    + destruct (Qltb (r_qty ra) (r_qty rb)); [|discriminate]. apply rmod_inv in H1 as [? [_ [? _]]]; discriminate.
  - destruct (Nat.eqb a a0); [discriminate|]. mcref H0. mcref H0. mrget H0. mrget H0. cbv zeta in H0. mbind H0.
    + apply rmod_inv in H0 as [? [_ [? _]]]; discriminate.
    + exact (J_create_comp E None [] true _ _ _ _ J2 H).
Qed.

Lemma prod_absorb_J E i j w u w' : 0 <= e_eps E -> J E None [] w -> prod_absorb E i j w = (u, w') -> u <> UB -> J E None [] w'.
Proof.
  intros He Hj H N0. unfold prod_absorb in H. mrget H. mrget H.
  mbind H; [|apply prod_quality_inv in H0 as [? [? _]]; discriminate].
  apply prod_quality_inv in H0 as [s [Es [Q ->]]]; [|discriminate].
  mbind H; [|apply prod_quality_inv in H0 as [? [? _]]; discriminate].
  apply prod_quality_inv in H0 as [s2 [Es2 [Q2 ->]]]; [|discriminate].
  destruct (negb _); [inversion H; subst; auto|].
  eapply absorb_tail_J; [exact He|exact Hj| |exact Hn|exact Hn0|exact H|auto]. simpl; tauto.
Qed.

Lemma step_J E o w u w' : 0 <= e_eps E -> no_clone o -> J E None [] w -> LV w -> step E o w = (u, w') -> u <> UB -> J E None [] w'.
Proof.
  intros He Hno Hj L H N0. destruct o; simpl in H; try contradiction.
  - destruct by_mass; unfold drop in H; (mbind H; [inversion H; subst|]);
      first [exact (J_create_comp E None [] true _ _ _ _ Hj H0)|exact (J_create_comp E None [] false _ _ _ _ Hj H0)].
  - unfold drop in H. mbind H; [inversion H; subst|]; eapply J_comp_decay; eauto; discriminate.
  - unfold valid_comp in H. mcref H. unfold drop in H. mbind H; [inversion H; subst|]; eapply mat_create_J; eauto; discriminate.
  - unfold valid_comp in H. mcref H. unfold drop in H. mbind H; [inversion H; subst|discriminate].
    apply (J_new E [] w (QMat c) false qty unpackaged_name) in H0 as [J1 _]; auto.
    + intros c0 E0. inversion E0; subst; eauto.
    + intros; discriminate.
  - eapply (opJ_drop E); eauto. apply prod_create_J.
  - unfold drop in H. assert (Hp : exists v, prod_create_untracked qty quality w = (v, w') /\ v <> UB).
    { mbind H; [inversion H; subst|]; eexists; split; eauto; discriminate. }
    clear H. destruct Hp as [v [H Nv]]. unfold prod_create_untracked in H. mbind H; [|discriminate].
    destruct (new_nth _ _ _ _ _ _ _ H0) as [r [Hr [Cr _]]].
    apply (J_new E [] w (QProd quality) false qty unpackaged_name) in H0 as [J1 _]; auto; try (intros; discriminate).
    mrmod H. rewrite Hr in Hn. inversion Hn; subst x. inversion H; subst.
    eapply J_clean.
    + apply (J_upd E None [] w0 a r (with_tracked false)); auto.
      * congruence.
      * congruence.
      * simpl. intros c Ec. eapply (j_ptr _ _ _ _ J1); eauto.
    + simpl. intros k x [<-|[]] Hk. rewrite nth_upd_same in Hk by (eapply nth_error_lt; eauto). inversion Hk; subst. left. exact Cr.
  - eapply (opJ_drop E); eauto. unfold extract_res. apply opJ_rget. intros r. destruct (r_qual r); [apply mat_extract_qty_J|apply prod_extract_J].
  - unfold mat_only in H. mrget H. mbind H; [|unfold mat_comp_ptr in H0; destruct (r_qual x); discriminate].
    assert (w0 = w) as ->. { unfold mat_comp_ptr in H0. destruct (r_qual x); inversion H0; auto. }
    unfold valid_comp in H. mcref H. unfold drop in H. mbind H; [inversion H; subst|]; eapply mat_extract_comp_J; eauto; discriminate.
  - unfold absorb in H. mrget H. mrget H. destruct (r_qual x), (r_qual x0); try (inversion H; subst; congruence).
    + eapply mat_absorb_J; eauto.
    + eapply prod_absorb_J; eauto.
  - unfold mat_only in H. mrget H. mbind H; [|unfold mat_comp_ptr in H0; destruct (r_qual x); discriminate].
    assert (w0 = w) as ->. { unfold mat_comp_ptr in H0. destruct (r_qual x); inversion H0; auto. }
    unfold valid_comp in H. mcref H. eapply mat_transmute_J; [exact Hj| |eauto|exact H|auto]. simpl; tauto.
  - unfold res_decay in H. mrget H. destruct (r_qual x); [eapply mat_decay_J; eauto|inversion H; subst; auto].
  - unfold mat_only in H. mrget H. mbind H; [|unfold mat_comp_ptr in H0; destruct (r_qual x); discriminate].
    assert (w0 = w) as ->. { unfold mat_comp_ptr in H0. destruct (r_qual x); inversion H0; auto. }
    unfold drop in H. mbind H; [inversion H; subst|]; eapply mat_comp_J; eauto; discriminate.
  - eapply (opJ_drop E); eauto. apply package_extract_J.
  - eapply (opJ_drop E); eauto. apply res_package_J.
  - eapply change_package_J; eauto.
  - inversion H; subst. eapply J_frame; [..|exact Hj]; simpl; eauto.
Qed.

Lemma run_J E : 0 <= e_eps E -> forall ops w w', Forall no_clone ops -> J E None [] w -> LV w -> run E ops w = Some w' ->
  J E None [] w' /\ LV w'.
Proof.
  intros He. induction ops as [|o ops IH]; simpl; intros w w' HF Hj L H; [inversion H; subst; auto|].
  inversion HF; subst. destruct (step E o w) as [[u|e|] w1] eqn:Hs; [| |discriminate];
  (eapply IH; [auto| | |exact H]); [eapply step_J; eauto; discriminate|eapply (LV_step E o); eauto; discriminate|
   eapply step_J; eauto; discriminate|eapply (LV_step E o); eauto; discriminate].
Qed.
Lemma reach_J E ops w : 0 <= e_eps E -> Forall no_clone ops -> run E ops world0 = Some w -> J E None [] w /\ LV w.
Proof. intros He HF H. eapply run_J; eauto; [apply J0|constructor]. Qed.
