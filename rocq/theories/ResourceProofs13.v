(** * Resources: C05-C07 read off the invariant, and the decay cache (C36). *)
From Verif Require Import Base CompModel CompSpec CompProofs PackageModel
  ResourceModel ResourceSpec ResourceProofs1 ResourceProofs2 ResourceProofs3 ResourceProofs4 ResourceProofs5 ResourceProofs6 ResourceProofs8 ResourceProofs9 ResourceProofs10 ResourceProofs11 ResourceProofs12.
Open Scope Q_scope.
Open Scope m_scope.

Lemma NoDup_index {A} (l : list A) (f : A -> Z) : (forall k x, nth_error l k = Some x -> f x = (Z.of_nat k + 1)%Z) -> NoDup (map f l).
Proof.
  intros H. apply (NoDup_nth_error (map f l)). intros i j Hi E0. rewrite map_length in Hi. rewrite !nth_error_map in E0.
  destruct (nth_error l i) eqn:A1; [|apply nth_error_None in A1; lia].
  destruct (nth_error l j) eqn:A2; [|discriminate]. simpl in E0. inversion E0.
  rewrite (H _ _ A1), (H _ _ A2) in H1. lia.
Qed.
Lemma C05_object_ids_lemma E ops w : 0 <= e_eps E -> Forall no_clone ops -> run E ops world0 = Some w -> NoDup (map r_obj (w_res w)).
Proof. intros He HF H. destruct (reach_J _ _ _ He HF H) as [Hj _]. apply NoDup_index. apply (j_obj _ _ _ _ Hj). Qed.

Lemma C06_parents_lemma E ops w : 0 <= e_eps E -> Forall no_clone ops -> run E ops world0 = Some w ->
  forall l1 x l2, res_rows (w_db w) = l1 ++ x :: l2 ->
  (row_p1 x = 0%Z \/ exists y, In y l1 /\ row_id y = row_p1 x) /\
  (row_p2 x = 0%Z \/ (exists y, In y l1 /\ row_id y = row_p2 x) \/
   exists k r, nth_error (w_res w) k = Some r /\ r_ctx r = false /\ r_state r = row_p2 x).
Proof.
  intros He HF H l1 x l2 Eq. destruct (reach_J _ _ _ He HF H) as [Hj _]. destruct (j_par _ _ _ _ Hj _ _ _ Eq) as [A B].
  split.
  - destruct A as [A|A]; auto. apply in_map_iff in A as [y [? ?]]. right. eauto.
  - destruct B as [B|[B|B]]; auto. apply in_map_iff in B as [y [? ?]]. right. left. eauto.
Qed.
Lemma C06_origin_lemma E ops w : 0 <= e_eps E -> Forall no_clone ops -> run E ops world0 = Some w ->
  forall x, In x (res_rows (w_db w)) -> (row_p1 x = 0%Z <-> exists a, In (DCreator (row_id x) a) (w_db w)).
Proof. intros He HF H. destruct (reach_J _ _ _ He HF H) as [Hj _]. apply (j_cre _ _ _ _ Hj). Qed.
Lemma C06_untracked_lemma E ops w : 0 <= e_eps E -> Forall no_clone ops -> run E ops world0 = Some w ->
  forall k r, nth_error (w_res w) k = Some r -> r_ctx r = false ->
  forall x, In x (res_rows (w_db w)) -> row_obj x <> r_obj r /\ row_id x <> r_state r.
Proof.
  intros He HF H k r Hk Hc x Hx. destruct (reach_J _ _ _ He HF H) as [Hj _].
  destruct (j_norec _ _ _ _ Hj _ _ Hk (or_introl Hc)) as [A B]. split; auto.
  intros Eq. apply A. rewrite <- Eq. apply in_map. auto.
Qed.

(** Without untracked creations everything has a context. *)
Definition allctx (w : world) : Prop := Forall (fun r => r_ctx r = true) (w_res w).
Lemma allctx_rmod i f : (forall r, r_ctx (f r) = r_ctx r) -> pinv allctx (rmod i f).
Proof.
  intros Hf w r w' Hw H N. apply rmod_inv in H as [x [Hx [_ ->]]]; auto. unfold allctx in *. simpl.
  apply Forall_upd; auto. rewrite Hf. rewrite Forall_forall in Hw. apply Hw. eapply nth_error_In; eauto.
Qed.
Lemma allctx_modify f : (forall w, w_res (f w) = w_res w) -> pinv allctx (modify f).
Proof. intros A. apply pinv_modify. intros w. unfold allctx. now rewrite A. Qed.
Lemma allctx_emit d : pinv allctx (emit d).
Proof. apply allctx_modify; reflexivity. Qed.
Lemma allctx_new q y p : pinv allctx (new_resource q true y p).
Proof. intros w r w' Hw H N. unfold new_resource in H. inversion H; subst. unfold allctx in *. simpl. apply Forall_app. split; auto. Qed.
Lemma allctx_comp_new a m : pinv allctx (comp_new a m).
Proof. intros w r w' Hw H N. inversion H; subst. exact Hw. Qed.
Lemma allctx_comp_new_in_line a p l : pinv allctx (comp_new_in_line a p l).
Proof. intros w r w' Hw H N. inversion H; subst. exact Hw. Qed.
Lemma allctx_bump i : pinv allctx (bump_state i).
Proof.
  intros w r w' Hw H N. unfold bump_state in H.
  assert (P : pinv allctx (rmod i (with_state (w_next_state w));; modify (fun w => set_next_state (w_next_state w + 1)%Z w))).
  { apply pinv_bind; [now apply allctx_rmod|intros; now apply allctx_modify]. }
  eapply P; eauto.
Qed.
Lemma allctx_comp_record E c : pinv allctx (comp_record E c).
Proof.
  unfold comp_record. apply pinv_bind; [apply pinv_cref|]. intros x. destruct (c_recorded x); [apply pinv_ret|].
  apply pinv_bind; [|intros; now apply allctx_modify]. intros w r w' Hw H N. unfold cmod in H. mcref H. inversion H; subst. exact Hw.
Qed.
Lemma allctx_rget {B} i (f : resource -> M B) : (forall r, r_ctx r = true -> pinv allctx (f r)) -> pinv allctx (r <- rget i; f r).
Proof.
  intros Hf w u w' Hw H N. mrget H. eapply (Hf x); eauto. unfold allctx in Hw. rewrite Forall_forall in Hw. apply Hw. eapply nth_error_In; eauto.
Qed.
#[export] Hint Resolve allctx_emit allctx_new allctx_comp_new allctx_comp_new_in_line allctx_bump allctx_comp_record : pinv.
#[export] Hint Extern 1 (pinv allctx (rmod _ _)) => (apply allctx_rmod; reflexivity) : pinv.
#[export] Hint Extern 1 (pinv allctx (modify _)) => (apply allctx_modify; reflexivity) : pinv.
Ltac ctx_tac :=
  repeat first
    [ solve [auto with pinv nocore]
    | match goal with |- pinv _ (bind (rget _) _) => let r := fresh "r" in let H := fresh "Hctx" in apply allctx_rget; intros r H; rewrite ?H end
    | match goal with |- pinv _ (bind _ _) => apply pinv_bind; intros end
    | match goal with |- pinv _ (match ?x with _ => _ end) => destruct x end
    | match goal with |- pinv _ (if ?x then _ else _) => destruct x end ].
Lemma allctx_qual_id q : pinv allctx (qual_id q).
Proof. unfold qual_id. pinv_tac. Qed.
#[export] Hint Resolve allctx_qual_id : pinv.
Lemma allctx_tr_record E b i : pinv allctx (tr_record E b i).
Proof. unfold tr_record, res_record. pinv_tac. Qed.
#[export] Hint Resolve allctx_tr_record : pinv.
Lemma allctx_comp_decay E c d s : pinv allctx (comp_decay E c d s).
Proof. unfold comp_decay, new_decay. pinv_tac. Qed.
#[export] Hint Resolve allctx_comp_decay : pinv.
Lemma allctx_mat_decay E i t : pinv allctx (mat_decay E i t).
Proof. unfold mat_decay, mat_transmute, tr_modify. cbv zeta. pinv_tac. Qed.
#[export] Hint Resolve allctx_mat_decay : pinv.
Lemma allctx_mat_comp E i : pinv allctx (mat_comp E i).
Proof. unfold mat_comp. pinv_tac. Qed.
#[export] Hint Resolve allctx_mat_comp : pinv.
Lemma allctx_package_extract E i q p : pinv allctx (package_extract E i q p).
Proof. unfold package_extract, mat_package_extract, prod_package_extract, tr_package, tr_modify. ctx_tac. Qed.
#[export] Hint Resolve allctx_package_extract : pinv.
Lemma allctx_package_loop E i n fills : pinv allctx (package_loop E i n fills).
Proof. induction fills; simpl; pinv_tac. Qed.
#[export] Hint Resolve allctx_package_loop : pinv.
Lemma allctx_step E o : no_untracked o -> pinv allctx (step E o).
Proof.
  intros Ho. destruct o; simpl in Ho; try contradiction; simpl; unfold drop, valid_comp, mat_only, mat_create, prod_create,
    extract_res, mat_extract_qty, mat_extract_comp, prod_extract, absorb, mat_absorb, prod_absorb, res_decay,
    res_package, change_package, mat_change_package, prod_change_package, create_from_mass, create_from_atom, mat_transmute,
    tr_create, tr_extract, tr_absorb, tr_package, tr_modify; cbv zeta; ctx_tac.
Qed.
Lemma run_allctx E : forall ops w w', Forall no_untracked ops -> allctx w -> run E ops w = Some w' -> allctx w'.
Proof.
  induction ops as [|o ops IH]; simpl; intros w w' HF Hw H; [inversion H; subst; auto|]. inversion HF; subst.
  destruct (step E o w) as [[u|e|] w1] eqn:Hs; [| |discriminate];
  (eapply IH; [auto| |exact H]); eapply (allctx_step E o); eauto; discriminate.
Qed.
Lemma no_untracked_no_clone ops : Forall no_untracked ops -> Forall no_clone ops.
Proof. intros H. eapply Forall_impl; [|exact H]. intros o. destruct o; simpl; auto. Qed.
Lemma C06_closed_lemma E ops w : 0 <= e_eps E -> Forall no_untracked ops -> run E ops world0 = Some w ->
  forall l1 x l2, res_rows (w_db w) = l1 ++ x :: l2 ->
  (row_p1 x = 0%Z \/ exists y, In y l1 /\ row_id y = row_p1 x) /\
  (row_p2 x = 0%Z \/ exists y, In y l1 /\ row_id y = row_p2 x).
Proof.
  intros He HF H l1 x l2 Eq. destruct (C06_parents_lemma E ops w He (no_untracked_no_clone _ HF) H l1 x l2 Eq) as [A B].
  split; auto. destruct B as [B|[B|[k [r [Hk [Hc _]]]]]]; auto. exfalso.
  assert (AC : allctx w) by (eapply run_allctx; eauto; constructor). unfold allctx in AC. rewrite Forall_forall in AC.
  rewrite (AC r) in Hc; [discriminate|]. eapply nth_error_In; eauto.
Qed.

Lemma C07_last_row_lemma E ops w : 0 <= e_eps E -> Forall no_clone ops -> run E ops world0 = Some w ->
  forall k r, nth_error (w_res w) k = Some r -> r_ctx r = true -> e_eps E < r_qty r ->
  exists x, last_row (r_obj r) (res_rows (w_db w)) = Some x /\ row_id x = r_state r /\ row_qty x = r_qty r /\
    row_type x = res_type (r_qual r) /\
    match r_qual r with
    | QMat c => exists y, nth_error (w_comps w) c = Some y /\ row_qual x = c_id y
    | QProd s => assoc s (w_quals w) = Some (row_qual x)
    end /\
    (row_pkg x = r_pkg r \/ row_type x = "Material"%string /\ r_pkg r = unpackaged_name).
Proof.
  intros He HF H k r Hk Hc Hq. destruct (reach_J _ _ _ He HF H) as [Hj _].
  destruct (j_last _ _ _ _ Hj k r Hk Hc ltac:(discriminate) ltac:(auto) Hq) as [x [Hl [M1 [M2 [M3 [M4 M5]]]]]].
  exists x. split; auto. split; auto. split; auto. split; auto. split; auto.
  destruct (r_qual r) as [c|s] eqn:Q; simpl in M3.
  - destruct (j_ptr _ _ _ _ Hj _ _ _ Hk Q) as [y Hy]. exists y. split; auto. now rewrite Hy in M3.
  - destruct (j_qual _ _ _ _ Hj _ _ _ Hk Hc Q) as [z Hz]. rewrite Hz in M3. congruence.
Qed.

(** ** C36: the decay cache *)
(** The entries of a decay line are the compositions of that line, filed under their decay time. *)
Definition LC (w : world) : Prop :=
  (forall l line t d, nth_error (w_lines w) l = Some line -> In (t, d) line ->
     exists x, nth_error (w_comps w) d = Some x /\ c_prev x = t /\ c_line x = l) /\
  (forall k x, nth_error (w_comps w) k = Some x -> (c_line x < length (w_lines w))%nat).
Lemma LC_frame w w' : w_lines w' = w_lines w -> map (fun x => (c_prev x, c_line x)) (w_comps w') = map (fun x => (c_prev x, c_line x)) (w_comps w) -> LC w -> LC w'.
Proof.
  intros A B [P Q].
  assert (C : forall k x, nth_error (w_comps w) k = Some x -> exists x', nth_error (w_comps w') k = Some x' /\ c_prev x' = c_prev x /\ c_line x' = c_line x).
  { intros k x H. assert (T : nth_error (map (fun x => (c_prev x, c_line x)) (w_comps w')) k = Some (c_prev x, c_line x)).
    { rewrite B, nth_error_map, H. reflexivity. }
    rewrite nth_error_map in T. destruct (nth_error (w_comps w') k) as [x'|]; [|discriminate]. simpl in T. inversion T; subst. eauto. }
  assert (D : forall k x', nth_error (w_comps w') k = Some x' -> exists x, nth_error (w_comps w) k = Some x /\ c_prev x' = c_prev x /\ c_line x' = c_line x).
  { intros k x H. assert (T : nth_error (map (fun x => (c_prev x, c_line x)) (w_comps w)) k = Some (c_prev x, c_line x)).
    { rewrite <- B, nth_error_map, H. reflexivity. }
    rewrite nth_error_map in T. destruct (nth_error (w_comps w) k) as [x'|]; [|discriminate]. simpl in T. inversion T; subst. eauto. }
  split.
  - intros l line t d Hl Hi. rewrite A in Hl. destruct (P _ _ _ _ Hl Hi) as [x [Hx [? ?]]]. destruct (C _ _ Hx) as [x' [Hx' [? ?]]].
    exists x'. repeat split; auto; congruence.
  - intros k x' H. rewrite A. destruct (D _ _ H) as [x [Hx [_ ->]]]. eauto.
Qed.
Lemma LC_rmod i f : pinv LC (rmod i f).
Proof. intros w r w' Hw H N. apply rmod_inv in H as [x [_ [_ ->]]]; auto. Qed.
Lemma LC_modify f : (forall w, w_comps (f w) = w_comps w) -> (forall w, w_lines (f w) = w_lines w) -> pinv LC (modify f).
Proof. intros A B. apply pinv_modify. intros w. apply LC_frame; [apply B|now rewrite A]. Qed.
Lemma LC_emit d : pinv LC (emit d).
Proof. apply LC_modify; reflexivity. Qed.
Lemma LC_new q c y p : pinv LC (new_resource q c y p).
Proof. intros w r w' Hw H N. unfold new_resource in H. inversion H; subst. exact Hw. Qed.
Lemma nth_app_inv {A} (l : list A) y k x : nth_error (l ++ [y]) k = Some x ->
  nth_error l k = Some x \/ k = length l /\ x = y.
Proof.
  intros H. destruct (Nat.lt_ge_cases k (length l)).
  - rewrite nth_error_app1 in H by auto. auto.
  - right. rewrite nth_error_app2 in H by auto. destruct (k - length l)%nat eqn:D; simpl in H; [|destruct n; discriminate].
    inversion H. split; auto. lia.
Qed.
Lemma LC_comp_new a m : pinv LC (comp_new a m).
Proof.
  intros w r w' [P Q] H N. inversion H; subst. split; simpl.
  - intros l line t d Hl Hi. apply nth_app_inv in Hl as [Hl|[-> ->]]; [|contradiction].
    destruct (P _ _ _ _ Hl Hi) as [x [Hx [? ?]]]. exists x. rewrite (nth_app_old _ _ _ _ Hx). auto.
  - intros k x Hk. rewrite app_length. simpl. apply nth_app_inv in Hk as [Hk|[-> ->]]; [apply Q in Hk; lia|simpl; lia].
Qed.
Lemma LC_bump i : pinv LC (bump_state i).
Proof.
  intros w r w' Hw H N. unfold bump_state in H.
  assert (P : pinv LC (rmod i (with_state (w_next_state w));; modify (fun w => set_next_state (w_next_state w + 1)%Z w))).
  { apply pinv_bind; [now apply LC_rmod|intros; now apply LC_modify]. }
  eapply P; eauto.
Qed.
Lemma LC_clone i : pinv LC (res_clone i).
Proof.
  intros w r w' Hw H N. unfold res_clone in H. mrget H. mget H.
  apply bind_inv in H as [[u [w1 [H1 H]]]|[[e [H1 H]]|[H1 H]]]; [|discriminate|discriminate].
  inversion H1; subst; clear H1. inversion H; subst; clear H. exact Hw.
Qed.
Lemma LC_comp_record E c : pinv LC (comp_record E c).
Proof.
  unfold comp_record. apply pinv_bind; [apply pinv_cref|]. intros x. destruct (c_recorded x); [apply pinv_ret|].
  apply pinv_bind; [|intros; now apply LC_modify]. intros w r w' Hw H N. unfold cmod in H. mcref H. inversion H; subst.
  eapply LC_frame; [| |exact Hw]; simpl; auto. rewrite map_upd. apply upd_same. rewrite nth_error_map, Hc. reflexivity.
Qed.
Lemma zset_In {A} k (v : A) m q : In q (zset k v m) -> q = (k, v) \/ In q m.
Proof.
  induction m as [|[k0 v0] t IH]; simpl; [intuition|]. destruct (k <? k0)%Z; [simpl; intuition|].
  destruct (k =? k0)%Z; simpl; intuition.
Qed.
Lemma zfind_zset_same {A} k (v : A) m : zfind k (zset k v m) = Some v.
Proof.
  induction m as [|[k0 v0] t IH]; simpl; [now rewrite Z.eqb_refl|].
  destruct (Z.ltb_spec k k0); simpl; [now rewrite Z.eqb_refl|].
  destruct (Z.eqb_spec k k0); simpl; [now rewrite Z.eqb_refl|].
  destruct (Z.eqb_spec k k0); [congruence|auto].
Qed.
Lemma zfind_zset_other {A} k k' (v : A) m : k <> k' -> zfind k (zset k' v m) = zfind k m.
Proof.
  intros Hne. induction m as [|[k0 v0] t IH]; simpl; [destruct (Z.eqb_spec k k'); [congruence|auto]|].
  destruct (k' <? k0)%Z; simpl; [destruct (Z.eqb_spec k k'); [congruence|auto]|].
  destruct (Z.eqb_spec k' k0); simpl; [subst; destruct (Z.eqb_spec k k0); [congruence|auto]|].
  destruct (k =? k0)%Z; auto.
Qed.
Lemma LC_comp_decay E c d s : pinv LC (comp_decay E c d s).
Proof.
  intros w r w' Hw H N. apply comp_decay_inv in H as [x [line [Hx [Hl [[n [_ [_ ->]]]|[_ [_ ->]]]]]]]; auto.
  destruct Hw as [P Q]. split; simpl.
  - intros l line' t d' Hl' Hi. destruct (Nat.eq_dec (c_line x) l); [subst l|].
    + rewrite nth_upd_same in Hl' by (eapply nth_error_lt; eauto). inversion Hl'; subst line'.
      apply zset_In in Hi as [Hi|Hi].
      * inversion Hi; subst. eexists. split; [apply nth_app_new|]. auto.
      * destruct (P _ _ _ _ Hl Hi) as [y [Hy [? ?]]]. exists y. rewrite (nth_app_old _ _ _ _ Hy). auto.
    + rewrite nth_upd_other in Hl' by auto. destruct (P _ _ _ _ Hl' Hi) as [y [Hy [? ?]]]. exists y. rewrite (nth_app_old _ _ _ _ Hy). auto.
  - intros k y Hk. rewrite upd_length. apply nth_app_inv in Hk as [Hk|[-> ->]]; [eauto|simpl; eauto].
Qed.
#[export] Hint Resolve LC_rmod LC_emit LC_new LC_comp_new LC_bump LC_clone LC_comp_record LC_comp_decay : pinv.
#[export] Hint Extern 1 (pinv LC (modify _)) => (apply LC_modify; reflexivity) : pinv.
Lemma LC_qual_id q : pinv LC (qual_id q).
Proof. unfold qual_id. pinv_tac. Qed.
#[export] Hint Resolve LC_qual_id : pinv.
Lemma LC_tr_record E b i : pinv LC (tr_record E b i).
Proof. unfold tr_record, res_record. pinv_tac. Qed.
#[export] Hint Resolve LC_tr_record : pinv.
Lemma LC_mat_decay E i t : pinv LC (mat_decay E i t).
Proof. unfold mat_decay, mat_transmute, tr_modify. cbv zeta. pinv_tac. Qed.
#[export] Hint Resolve LC_mat_decay : pinv.
Lemma LC_mat_comp E i : pinv LC (mat_comp E i).
Proof. unfold mat_comp. pinv_tac. Qed.
#[export] Hint Resolve LC_mat_comp : pinv.
Lemma LC_package_extract E i q p : pinv LC (package_extract E i q p).
Proof. unfold package_extract, mat_package_extract, prod_package_extract, tr_package, tr_modify. pinv_tac. Qed.
#[export] Hint Resolve LC_package_extract : pinv.
Lemma LC_package_loop E i n fills : pinv LC (package_loop E i n fills).
Proof. induction fills; simpl; pinv_tac. Qed.
#[export] Hint Resolve LC_package_loop : pinv.
Lemma LC_step E o : pinv LC (step E o).
Proof.
  destruct o; simpl; unfold drop, valid_comp, mat_only, mat_create, mat_create_untracked, prod_create,
    prod_create_untracked, extract_res, mat_extract_qty, mat_extract_comp, prod_extract, absorb, mat_absorb, prod_absorb, res_decay,
    res_package, change_package, mat_change_package, prod_change_package, create_from_mass, create_from_atom, mat_transmute,
    tr_create, tr_extract, tr_absorb, tr_package, tr_modify; cbv zeta; pinv_tac.
Qed.
Lemma LC0 : LC world0.
Proof. split; simpl; intros k; intros; destruct k; discriminate. Qed.
Lemma run_LC E ops w : run E ops world0 = Some w -> LC w.
Proof. apply (run_pinv LC E (LC_step E)). apply LC0. Qed.

(** What a call to Decay leaves behind. *)
Lemma decay_filed E c d s w n w' : LC w -> comp_decay E c d s w = (Ok n, w') ->
  exists x y line, nth_error (w_comps w) c = Some x /\ nth_error (w_comps w') c = Some x /\
    nth_error (w_comps w') n = Some y /\ c_prev y = (c_prev x + d)%Z /\ c_line y = c_line x /\
    nth_error (w_lines w') (c_line x) = Some line /\ zfind (c_prev x + d) line = Some n.
Proof.
  intros Hw H. assert (Hw' := LC_comp_decay E c d s w _ w' Hw H ltac:(discriminate)).
  apply comp_decay_inv in H as [x [line [Hx [Hl [[m [Z0 [Em ->]]]|[Z0 [Em ->]]]]]]]; [| |discriminate]; inversion Em; subst.
  - destruct (proj1 Hw _ _ _ _ Hl (zfind_In _ _ _ Z0)) as [y [Hy [? ?]]]. exists x, y, line. repeat split; auto.
  - eexists x, _, _. simpl. split; [exact Hx|]. split; [now apply nth_app_old|]. split; [apply nth_app_new|]. simpl.
    split; auto. split; auto. split; [apply nth_upd_same; eapply nth_error_lt; eauto|]. apply zfind_zset_same.
Qed.
Lemma decay_cached E c d s w x line n : nth_error (w_comps w) c = Some x -> nth_error (w_lines w) (c_line x) = Some line ->
  zfind (c_prev x + d) line = Some n -> comp_decay E c d s w = (Ok n, w).
Proof.
  intros Hx Hl Hz. unfold comp_decay. rewrite (bind_ok _ _ _ _ _ (cref_ok _ _ _ Hx)).
  change (bind get ?f w) with (f w w). cbv beta. rewrite Hl. unfold bind, deref, ret. now rewrite Hz.
Qed.

Lemma C36_chain_lemma E ops w c a b s n1 w1 n2 w2 : run E ops world0 = Some w ->
  comp_decay E c a s w = (Ok n1, w1) -> comp_decay E n1 b s w1 = (Ok n2, w2) ->
  comp_decay E c (a + b) s w2 = (Ok n2, w2).
Proof.
  intros R H1 H2. assert (L0 := run_LC _ _ _ R). assert (L1 := LC_comp_decay E c a s w _ w1 L0 H1 ltac:(discriminate)).
  destruct (decay_filed _ _ _ _ _ _ _ L0 H1) as [x [y [line [Hx [Hx1 [Hy [Py [Ly _]]]]]]]].
  destruct (decay_filed _ _ _ _ _ _ _ L1 H2) as [y' [z [line2 [Hy' [Hy2 [Hz [Pz [Lz [Hl2 Hf]]]]]]]]].
  rewrite Hy in Hy'. inversion Hy'; subst y'.
  assert (Hx2 : nth_error (w_comps w2) c = Some x).
  { apply comp_decay_inv in H2 as [q [ln [_ [_ [[m [_ [_ ->]]]|[_ [_ ->]]]]]]]; [auto| |discriminate]. simpl. now apply nth_app_old. }
  eapply decay_cached; [exact Hx2|rewrite <- Ly; exact Hl2|]. rewrite <- Hf, Py. f_equal. lia.
Qed.

(** A cached decay stays cached. *)
Definition filed (c : nat) (t : Z) (n : nat) (w : world) : Prop :=
  exists x line, nth_error (w_comps w) c = Some x /\ nth_error (w_lines w) (c_line x) = Some line /\ zfind (c_prev x + t) line = Some n.
Lemma filed_mono c t n w w' :
  (forall x, nth_error (w_comps w) c = Some x -> exists x', nth_error (w_comps w') c = Some x' /\ c_prev x' = c_prev x /\ c_line x' = c_line x) ->
  (forall l line, nth_error (w_lines w) l = Some line -> exists line', nth_error (w_lines w') l = Some line' /\ forall k v, zfind k line = Some v -> zfind k line' = Some v) ->
  filed c t n w -> filed c t n w'.
Proof.
  intros A B [x [line [Hx [Hl Hf]]]]. destruct (A _ Hx) as [x' [Hx' [P L]]]. destruct (B _ _ Hl) as [line' [Hl' K]].
  exists x', line'. rewrite L, P. auto.
Qed.
Lemma filed_same c t n w w' : w_comps w' = w_comps w -> w_lines w' = w_lines w -> filed c t n w -> filed c t n w'.
Proof. intros A B. apply filed_mono; rewrite ?A, ?B; eauto. Qed.
Lemma filed_rmod c t n i f : pinv (filed c t n) (rmod i f).
Proof. intros w r w' Hw H N. apply rmod_inv in H as [x [_ [_ ->]]]; auto. Qed.
Lemma filed_modify c t n f : (forall w, w_comps (f w) = w_comps w) -> (forall w, w_lines (f w) = w_lines w) -> pinv (filed c t n) (modify f).
Proof. intros A B. apply pinv_modify. intros w. apply filed_same; auto. Qed.
Lemma filed_emit c t n d : pinv (filed c t n) (emit d).
Proof. apply filed_modify; reflexivity. Qed.
Lemma filed_new c t n q x y p : pinv (filed c t n) (new_resource q x y p).
Proof. intros w r w' Hw H N. unfold new_resource in H. inversion H; subst. exact Hw. Qed.
Lemma filed_comp_new c t n a m : pinv (filed c t n) (comp_new a m).
Proof.
  intros w r w' Hw H N. inversion H; subst. eapply filed_mono; [| |exact Hw]; simpl.
  - intros x Hx. exists x. split; auto. now apply nth_app_old.
  - intros l line Hl. exists line. split; auto. now apply nth_app_old.
Qed.
Lemma filed_bump c t n i : pinv (filed c t n) (bump_state i).
Proof.
  intros w r w' Hw H N. unfold bump_state in H.
  assert (P : pinv (filed c t n) (rmod i (with_state (w_next_state w));; modify (fun w => set_next_state (w_next_state w + 1)%Z w))).
  { apply pinv_bind; [now apply filed_rmod|intros; now apply filed_modify]. }
  eapply P; eauto.
Qed.
Lemma filed_clone c t n i : pinv (filed c t n) (res_clone i).
Proof.
  intros w r w' Hw H N. unfold res_clone in H. mrget H. mget H.
  apply bind_inv in H as [[u [w1 [H1 H]]]|[[e [H1 H]]|[H1 H]]]; [|discriminate|discriminate].
  inversion H1; subst; clear H1. inversion H; subst; clear H. exact Hw.
Qed.
Lemma filed_comp_record c t n E k : pinv (filed c t n) (comp_record E k).
Proof.
  unfold comp_record. apply pinv_bind; [apply pinv_cref|]. intros x. destruct (c_recorded x); [apply pinv_ret|].
  apply pinv_bind; [|intros; now apply filed_modify]. intros w r w' Hw H N. unfold cmod in H. mcref H. inversion H; subst.
  eapply filed_mono; [| |exact Hw]; simpl; eauto. intros y Hy. destruct (Nat.eq_dec k c); [subst|].
  - rewrite nth_upd_same by (eapply nth_error_lt; eauto). rewrite Hy in Hc. inversion Hc; subst. eexists. split; [reflexivity|auto].
  - rewrite nth_upd_other by auto. eauto.
Qed.
Lemma filed_comp_decay c t n E k d s : pinv (filed c t n) (comp_decay E k d s).
Proof.
  intros w r w' Hw H N. apply comp_decay_inv in H as [x [line [Hx [Hl [[m [_ [_ ->]]]|[Z0 [_ ->]]]]]]]; auto.
  eapply filed_mono; [| |exact Hw]; simpl.
  - intros y Hy. exists y. split; auto. now apply nth_app_old.
  - intros l line' Hl'. destruct (Nat.eq_dec (c_line x) l); [subst|].
    + rewrite nth_upd_same by (eapply nth_error_lt; eauto). rewrite Hl in Hl'. inversion Hl'; subst. eexists. split; [reflexivity|].
      intros k0 v Hk. rewrite zfind_zset_other; auto. congruence.
    + rewrite nth_upd_other by auto. eauto.
Qed.
#[export] Hint Resolve filed_rmod filed_emit filed_new filed_comp_new filed_bump filed_clone filed_comp_record filed_comp_decay : pinv.
#[export] Hint Extern 1 (pinv (filed _ _ _) (modify _)) => (apply filed_modify; reflexivity) : pinv.
Lemma filed_qual_id c t n q : pinv (filed c t n) (qual_id q).
Proof. unfold qual_id. pinv_tac. Qed.
#[export] Hint Resolve filed_qual_id : pinv.
Lemma filed_tr_record c t n E b i : pinv (filed c t n) (tr_record E b i).
Proof. unfold tr_record, res_record. pinv_tac. Qed.
#[export] Hint Resolve filed_tr_record : pinv.
Lemma filed_mat_decay c t n E i t' : pinv (filed c t n) (mat_decay E i t').
Proof. unfold mat_decay, mat_transmute, tr_modify. cbv zeta. pinv_tac. Qed.
#[export] Hint Resolve filed_mat_decay : pinv.
Lemma filed_mat_comp c t n E i : pinv (filed c t n) (mat_comp E i).
Proof. unfold mat_comp. pinv_tac. Qed.
#[export] Hint Resolve filed_mat_comp : pinv.
Lemma filed_package_extract c t n E i q p : pinv (filed c t n) (package_extract E i q p).
Proof. unfold package_extract, mat_package_extract, prod_package_extract, tr_package, tr_modify. pinv_tac. Qed.
#[export] Hint Resolve filed_package_extract : pinv.
Lemma filed_package_loop c t n E i m fills : pinv (filed c t n) (package_loop E i m fills).
Proof. induction fills; simpl; pinv_tac. Qed.
#[export] Hint Resolve filed_package_loop : pinv.
Lemma filed_step c t n E o : pinv (filed c t n) (step E o).
Proof.
  destruct o; simpl; unfold drop, valid_comp, mat_only, mat_create, mat_create_untracked, prod_create,
    prod_create_untracked, extract_res, mat_extract_qty, mat_extract_comp, prod_extract, absorb, mat_absorb, prod_absorb, res_decay,
    res_package, change_package, mat_change_package, prod_change_package, create_from_mass, create_from_atom, mat_transmute,
    tr_create, tr_extract, tr_absorb, tr_package, tr_modify; cbv zeta; pinv_tac.
Qed.
Lemma C36_repeat_lemma E ops w c a s n w1 ops' w2 s' : run E ops world0 = Some w ->
  comp_decay E c a s w = (Ok n, w1) -> run E ops' w1 = Some w2 ->
  comp_decay E c a s' w2 = (Ok n, w2).
Proof.
  intros R H R2. assert (L0 := run_LC _ _ _ R).
  destruct (decay_filed _ _ _ _ _ _ _ L0 H) as [x [y [line [Hx [Hx1 [Hy [Py [Ly [Hl Hf]]]]]]]]].
  assert (F : filed c a n w1) by (exists x, line; auto).
  apply (run_pinv (filed c a n) E (filed_step c a n E) _ _ _ F) in R2. destruct R2 as [x2 [l2 [? [? ?]]]].
  eapply decay_cached; eauto.
Qed.

(** A decay that is not in the cache is computed from the composition asked for, for the duration asked for. *)
Lemma C36_fresh_lemma E ops c a s w n w' : run E ops world0 = Some w -> comp_decay E c a s w = (Ok n, w') -> (n >= length (w_comps w))%nat ->
  exists x y, nth_error (w_comps w) c = Some x /\ nth_error (w_comps w') n = Some y /\
    comp_atom E y = decayed E (comp_atom E x) (s * a).
Proof.
  intros R H Hn.
  assert (L : LV w) by (eapply (run_pinv LV E (LV_step E)); [|exact R]; constructor).
  apply comp_decay_inv in H as [x [line [Hx [Hl [[m [Z0 [Em ->]]]|[Z0 [Em ->]]]]]]]; [| |discriminate]; inversion Em; subst.
  - exfalso. apply zfind_In in Z0. unfold LV in L. rewrite Forall_forall in L. apply nth_error_In in Hl. specialize (L _ Hl).
    rewrite Forall_forall in L. specialize (L _ Z0). simpl in L. lia.
  - eexists x, _. split; [exact Hx|]. simpl. split; [apply nth_app_new|].
    unfold comp_atom at 1. simpl. unfold decayed. destruct (comp_atom E x) eqn:Ea; [reflexivity|].
    destruct (decayed_atoms E (p :: c0) (s * a)); reflexivity.
Qed.

(** With one step length and a solver that composes over time, every cached result is the right one. *)
Definition SG (E : env) (s : Z) (w : world) : Prop :=
  (forall k x, nth_error (w_comps w) k = Some x -> (c_line x < length (w_lines w))%nat) /\
  (forall l line t d, nth_error (w_lines w) l = Some line -> In (t, d) line ->
     exists y, nth_error (w_comps w) d = Some y /\ c_prev y = t /\ c_line y = l) /\
  forall l line, nth_error (w_lines w) l = Some line -> exists v0, 
    (forall k x, nth_error (w_comps w) k = Some x -> c_line x = l ->
      (c_prev x = 0%Z /\ comp_atom E x = v0) \/ comp_atom E x = decayed E v0 (s * c_prev x)) /\
    (forall t d y, In (t, d) line -> nth_error (w_comps w) d = Some y -> comp_atom E y = decayed E v0 (s * t)).
Lemma SG_frame E s w w' : w_lines w' = w_lines w ->
  (forall k x', nth_error (w_comps w') k = Some x' -> exists x, nth_error (w_comps w) k = Some x /\ c_prev x' = c_prev x /\ c_line x' = c_line x /\ comp_atom E x' = comp_atom E x) ->
  length (w_comps w') = length (w_comps w) ->
  SG E s w -> SG E s w'.
Proof.
  intros A B Ln [Q [F P]]. split; [|split].
  - intros k x' H. rewrite A. destruct (B _ _ H) as [x [Hx [_ [-> _]]]]. eauto.
  - intros l line t d Hl Hi. rewrite A in Hl. destruct (F _ _ _ _ Hl Hi) as [y [Hy [Ep El]]].
    destruct (nth_error (w_comps w') d) as [y'|] eqn:Hy'.
    + destruct (B _ _ Hy') as [y2 [Hy2 [? [? _]]]]. exists y'. repeat split; congruence.
    + apply nth_error_None in Hy'. apply nth_error_lt in Hy. lia.
  - intros l line Hl. rewrite A in Hl. destruct (P _ _ Hl) as [v0 [K1 K2]]. exists v0. split.
    + intros k x' H El. destruct (B _ _ H) as [x [Hx [Ep [El2 Ea]]]]. rewrite Ep, Ea. eapply K1; eauto. congruence.
    + intros t d y Hi Hy. destruct (B _ _ Hy) as [x [Hx [Ep [El2 Ea]]]]. rewrite Ea. eauto.
Qed.
Lemma SG_same E s w w' : w_lines w' = w_lines w -> w_comps w' = w_comps w -> SG E s w -> SG E s w'.
Proof. intros A B. apply SG_frame; auto; rewrite B; eauto. Qed.
Lemma nd_atom E x i p l t : comp_atom E (mkComp i (match comp_atom E x with [] => [] | a => decayed_atoms E a t end) [] false p l) = decayed E (comp_atom E x) t.
Proof.
  unfold comp_atom at 1. simpl. unfold decayed. destruct (comp_atom E x) as [|q a]; [reflexivity|]. destruct (decayed_atoms E (q :: a) t); reflexivity.
Qed.
Definition SGI (E : env) (s : Z) (w : world) : Prop := SG E s w /\ (default_dt = s \/ allctx w).
Lemma SGI_intro E s {A} (m : M A) : pinv (SG E s) m -> pinv allctx m -> pinv (SGI E s) m.
Proof. intros P Q w r w' [H1 H2] H N. split; [eauto|]. destruct H2; [auto|right; eauto]. Qed.
Lemma SG_rmod E s i f : pinv (SG E s) (rmod i f).
Proof. intros w r w' Hw H N. apply rmod_inv in H as [x [_ [_ ->]]]; auto. Qed.
Lemma SG_modify E s f : (forall w, w_comps (f w) = w_comps w) -> (forall w, w_lines (f w) = w_lines w) -> pinv (SG E s) (modify f).
Proof. intros A B. apply pinv_modify. intros w. apply SG_same; auto. Qed.
Lemma SGI_rmod E s i f : (forall r, r_ctx (f r) = r_ctx r) -> pinv (SGI E s) (rmod i f).
Proof. intros. apply SGI_intro; [apply SG_rmod|now apply allctx_rmod]. Qed.
Lemma SGI_modify E s f : (forall w, w_comps (f w) = w_comps w) -> (forall w, w_lines (f w) = w_lines w) -> (forall w, w_res (f w) = w_res w) -> pinv (SGI E s) (modify f).
Proof. intros. apply SGI_intro; [now apply SG_modify|now apply allctx_modify]. Qed.
Lemma SGI_emit E s d : pinv (SGI E s) (emit d).
Proof. apply SGI_modify; reflexivity. Qed.
Lemma SGI_new E s q c y p : default_dt = s \/ c = true -> pinv (SGI E s) (new_resource q c y p).
Proof.
  intros Hc w r w' [H1 H2] H N. unfold new_resource in H. inversion H; subst. split; [exact H1|].
  destruct Hc; [auto|]. destruct H2; [auto|]. right. subst. unfold allctx in *. simpl. apply Forall_app. split; auto.
Qed.
Lemma SGI_comp_new E s a m : pinv (SGI E s) (comp_new a m).
Proof.
  apply SGI_intro; [|apply allctx_comp_new]. intros w r w' [Q [F P]] H N. inversion H; subst. split; [|split]; simpl.
  - intros k x Hk. rewrite app_length. simpl. apply nth_app_inv in Hk as [Hk|[-> ->]]; [apply Q in Hk; lia|simpl; lia].
  - intros l line t d Hl Hi. apply nth_app_inv in Hl as [Hl|[-> ->]]; [|contradiction].
    destruct (F _ _ _ _ Hl Hi) as [x [Hx [? ?]]]. exists x. rewrite (nth_app_old _ _ _ _ Hx). auto.
  - intros l line Hl. apply nth_app_inv in Hl as [Hl|[-> ->]].
    + destruct (P _ _ Hl) as [v0 [K1 K2]]. exists v0. split.
      * intros k x Hk El. apply nth_app_inv in Hk as [Hk|[-> ->]]; [eauto|]. simpl in El. apply nth_error_lt in Hl. lia.
      * intros t d y Hi Hy. destruct (F _ _ _ _ Hl Hi) as [y' [Hy' _]]. rewrite (nth_app_old _ _ _ _ Hy') in Hy. inversion Hy; subst. eauto.
    + exists (comp_atom E (mkComp (w_next_comp w) a m false 0 (length (w_lines w)))). split; [|contradiction]. intros k x Hk El.
      apply nth_app_inv in Hk as [Hk|[-> ->]]; [apply Q in Hk; lia|]. left. auto.
Qed.
Lemma SGI_bump E s i : pinv (SGI E s) (bump_state i).
Proof.
  intros w r w' Hw H N. unfold bump_state in H.
  assert (P : pinv (SGI E s) (rmod i (with_state (w_next_state w));; modify (fun w => set_next_state (w_next_state w + 1)%Z w))).
  { apply pinv_bind; [now apply SGI_rmod|intros; now apply SGI_modify]. }
  eapply P; eauto.
Qed.
Lemma SGI_comp_record E s k : pinv (SGI E s) (comp_record E k).
Proof.
  apply SGI_intro; [|apply allctx_comp_record].
  unfold comp_record. apply pinv_bind; [apply pinv_cref|]. intros x. destruct (c_recorded x); [apply pinv_ret|].
  apply pinv_bind; [|intros; now apply SG_modify]. intros w r w' Hw H N. unfold cmod in H. mcref H. inversion H; subst.
  eapply SG_frame; [| | |exact Hw]; simpl; auto; [|now rewrite upd_length]. intros j y Hj. destruct (Nat.eq_dec k j); [subst|].
  - rewrite nth_upd_same in Hj by (eapply nth_error_lt; eauto). inversion Hj; subst. eexists. split; [exact Hc|]. split; [reflexivity|]. split; reflexivity.
  - rewrite nth_upd_other in Hj by auto. eauto.
Qed.
Lemma SGI_comp_decay E s c d : decay_composes E -> pinv (SGI E s) (comp_decay E c d s).
Proof.
  intros Sg. apply SGI_intro; [|apply allctx_comp_decay].
  intros w r w' Hw H N. apply comp_decay_inv in H as [x [line [Hx [Hl [[m [_ [_ ->]]]|[Z0 [_ ->]]]]]]]; auto.
  destruct Hw as [Q [F P]]. split; [|split]; simpl.
  - intros k y Hk. rewrite upd_length. apply nth_app_inv in Hk as [Hk|[-> ->]]; [eauto|simpl; eauto].
  - intros l line' t d' Hl' Hi. destruct (Nat.eq_dec (c_line x) l); [subst l|].
    + rewrite nth_upd_same in Hl' by (eapply nth_error_lt; eauto). inversion Hl'; subst line'.
      apply zset_In in Hi as [Hi|Hi].
      * inversion Hi; subst. eexists. split; [apply nth_app_new|]. auto.
      * destruct (F _ _ _ _ Hl Hi) as [y [Hy [? ?]]]. exists y. rewrite (nth_app_old _ _ _ _ Hy). auto.
    + rewrite nth_upd_other in Hl' by auto. destruct (F _ _ _ _ Hl' Hi) as [y [Hy [? ?]]]. exists y. rewrite (nth_app_old _ _ _ _ Hy). auto.
  - intros l line' Hl'.
    assert (exists ln, nth_error (w_lines w) l = Some ln) as [ln Hln].
    { apply nth_error_lt in Hl'. rewrite upd_length in Hl'. destruct (nth_error (w_lines w) l) eqn:G; eauto. apply nth_error_None in G. lia. }
    destruct (P _ _ Hln) as [v0 [K1 K2]]. exists v0.
    assert (New : c_line x = l -> decayed E (comp_atom E x) (s * d) = decayed E v0 (s * (c_prev x + d))).
    { intros El. destruct (K1 _ _ Hx El) as [[P0 A0]|A0]; rewrite A0.
      - rewrite P0. f_equal; lia.
      - rewrite Sg. f_equal; lia. }
    split.
    + intros k y Hk El. apply nth_app_inv in Hk as [Hk|[-> ->]]; [eauto|]. cbn [c_line] in El. right. rewrite nd_atom. cbn [c_prev]. auto.
    + intros t d' y Hi Hy.
      assert (Old : In (t, d') ln -> comp_atom E y = decayed E v0 (s * t)).
      { intros Hin. destruct (F _ _ _ _ Hln Hin) as [y' [Hy' _]]. rewrite (nth_app_old _ _ _ _ Hy') in Hy. inversion Hy; subst. eauto. }
      destruct (Nat.eq_dec (c_line x) l).
      * subst l. rewrite nth_upd_same in Hl' by (eapply nth_error_lt; eauto). inversion Hl'; subst line'. rewrite Hl in Hln. inversion Hln; subst ln.
        apply zset_In in Hi as [Hi|Hi]; [|auto]. inversion Hi; subst. rewrite nth_app_new in Hy. inversion Hy; subst. rewrite nd_atom. auto.
      * rewrite nth_upd_other in Hl' by auto. rewrite Hln in Hl'. inversion Hl'; subst. auto.
Qed.
Lemma SGI_rget {B} E s i (f : resource -> M B) : (forall r, default_dt = s \/ r_ctx r = true -> pinv (SGI E s) (f r)) -> pinv (SGI E s) (r <- rget i; f r).
Proof.
  intros Hf w u w' Hw H N. mrget H. eapply (Hf x); eauto. destruct Hw as [_ [?|Hw]]; auto. right.
  unfold allctx in Hw. rewrite Forall_forall in Hw. apply Hw. eapply nth_error_In; eauto.
Qed.
#[export] Hint Resolve SGI_emit SGI_comp_new SGI_bump SGI_comp_record : pinv.
#[export] Hint Extern 1 (pinv (SGI _ _) (rmod _ _)) => (apply SGI_rmod; reflexivity) : pinv.
#[export] Hint Extern 1 (pinv (SGI _ _) (modify _)) => (apply SGI_modify; reflexivity) : pinv.
#[export] Hint Extern 1 (pinv (SGI _ _) (new_resource _ _ _ _)) => (apply SGI_new; auto) : pinv.
Ltac sg_tac :=
  repeat first
    [ solve [auto with pinv nocore]
    | match goal with |- pinv _ (bind (rget _) _) => let r := fresh "r" in let H := fresh "Hctx" in apply SGI_rget; intros r H end
    | match goal with |- pinv _ (bind _ _) => apply pinv_bind; intros end
    | match goal with |- pinv _ (match ?x with _ => _ end) => destruct x end
    | match goal with |- pinv _ (if ?x then _ else _) => destruct x end ].
Lemma SGI_qual_id E s q : pinv (SGI E s) (qual_id q).
Proof. unfold qual_id. pinv_tac. Qed.
#[export] Hint Resolve SGI_qual_id : pinv.
Lemma SGI_tr_record E s b i : pinv (SGI E s) (tr_record E b i).
Proof. unfold tr_record, res_record. pinv_tac. Qed.
#[export] Hint Resolve SGI_tr_record : pinv.
Lemma SGI_mat_decay E s i t : decay_composes E -> e_dt E = s -> pinv (SGI E s) (mat_decay E i t).
Proof.
  intros Sg Ed. unfold mat_decay, mat_transmute, tr_modify. cbv zeta. sg_tac.
  all: match goal with |- pinv _ (comp_decay _ _ _ ?k) => replace k with s end; try now apply SGI_comp_decay.
  all: destruct (r_ctx r); destruct Hctx; congruence.
Qed.
Lemma SGI_mat_comp E s i : decay_composes E -> e_dt E = s -> pinv (SGI E s) (mat_comp E i).
Proof. intros. unfold mat_comp. assert (K := fun i t => SGI_mat_decay E s i t H H0). sg_tac. Qed.
Lemma SGI_package_extract E s i q p : pinv (SGI E s) (package_extract E i q p).
Proof. unfold package_extract, mat_package_extract, prod_package_extract, tr_package, tr_modify. sg_tac. Qed.
#[export] Hint Resolve SGI_package_extract : pinv.
Lemma SGI_package_loop E s i m fills : pinv (SGI E s) (package_loop E i m fills).
Proof. induction fills; simpl; pinv_tac. Qed.
#[export] Hint Resolve SGI_package_loop : pinv.
Lemma SGI_step E s o : decay_composes E -> e_dt E = s -> one_step_length s o -> pinv (SGI E s) (step E o).
Proof.
  intros Sg Ed Ho. assert (K1 := fun i t => SGI_mat_decay E s i t Sg Ed). assert (K2 := fun i => SGI_mat_comp E s i Sg Ed).
  destruct o; simpl in Ho; try contradiction; simpl; unfold drop, valid_comp, mat_only, mat_create, mat_create_untracked, prod_create,
    prod_create_untracked, extract_res, mat_extract_qty, mat_extract_comp, prod_extract, absorb, mat_absorb, prod_absorb, res_decay,
    res_package, change_package, mat_change_package, prod_change_package, create_from_mass, create_from_atom, mat_transmute,
    tr_create, tr_extract, tr_absorb, tr_package, tr_modify; cbv zeta; sg_tac; auto.
  subst. now apply SGI_comp_decay.
Qed.
Lemma C36_exact_lemma E s ops w c a n w' : decay_composes E -> e_dt E = s -> Forall (one_step_length s) ops -> run E ops world0 = Some w ->
  comp_decay E c a s w = (Ok n, w') ->
  exists x y, nth_error (w_comps w) c = Some x /\ nth_error (w_comps w') n = Some y /\
    comp_atom E y = decayed E (comp_atom E x) (s * a).
Proof.
  intros Sg Ed HF R H. assert (L0 := run_LC _ _ _ R).
  assert (G : SGI E s w).
  { clear H. assert (G0 : SGI E s world0).
    { split; [|right; constructor]. split; [|split]; simpl; intros k; intros; destruct k; discriminate. }
    revert G0 R. generalize world0. induction ops as [|o ops IH]; simpl; intros w0 G0 R; [inversion R; subst; auto|]. inversion HF; subst.
    destruct (step E o w0) as [[u|e|] w1] eqn:Hs; [| |discriminate];
    (eapply IH; [auto| |exact R]); eapply (SGI_step E _ o); eauto; discriminate. }
  assert (G' := SGI_comp_decay E s c a Sg w _ w' G H ltac:(discriminate)).
  destruct (decay_filed _ _ _ _ _ _ _ L0 H) as [x [y [line [Hx [Hx1 [Hy [Py [Ly [Hl Hf]]]]]]]]].
  exists x, y. split; auto. split; auto.
  destruct G as [[_ [_ P]] _]. destruct G' as [[Q' [F' P']] _].
  destruct (P' _ _ Hl) as [v0 [K1 K2]]. rewrite (K2 _ _ _ (zfind_In _ _ _ Hf) Hy).
  destruct (K1 _ _ Hx1 eq_refl) as [[P0 A0]|A0]; rewrite A0.
  - rewrite P0. f_equal; lia.
  - rewrite Sg. f_equal; lia.
Qed.
