(** * Resources: the Resources table against the live inventory (C05-C07), histories without Clone. *)
From Verif Require Import Base CompModel CompSpec CompProofs PackageModel
  ResourceModel ResourceSpec ResourceProofs1 ResourceProofs2 ResourceProofs3 ResourceProofs4 ResourceProofs5 ResourceProofs6 ResourceProofs8 ResourceProofs9.
Open Scope Q_scope.
Open Scope m_scope.

(** ** Object ids never change *)
Definition has_obj (k : nat) (o : Z) (w : world) : Prop := exists r, nth_error (w_res w) k = Some r /\ r_obj r = o.

Lemma obj_rmod k o i f : (forall r, r_obj (f r) = r_obj r) -> pinv (has_obj k o) (rmod i f).
Proof.
  intros Hf w r w' [x [Hx Ho]] H N. apply rmod_inv in H as [y [Hy [_ ->]]]; auto. destruct (Nat.eq_dec i k); [subst|].
  - exists (f x). rewrite Hx in Hy. inversion Hy; subst. simpl. rewrite nth_upd_same by (eapply nth_error_lt; eauto). auto.
  - exists x. simpl. rewrite nth_upd_other by auto. auto.
Qed.
Lemma obj_modify k o f : (forall w, w_res (f w) = w_res w) -> pinv (has_obj k o) (modify f).
Proof. intros A. apply pinv_modify. intros w [x Hx]. exists x. rewrite A. auto. Qed.
Lemma obj_emit k o d : pinv (has_obj k o) (emit d).
Proof. apply obj_modify. reflexivity. Qed.
Lemma obj_new k o q c y p : pinv (has_obj k o) (new_resource q c y p).
Proof. intros w r w' [x [Hx Ho]] H N. inversion H; subst. exists x. simpl. split; auto. now apply nth_app_old. Qed.
Lemma obj_comp_new k o a m : pinv (has_obj k o) (comp_new a m).
Proof. intros w r w' Hw H N. inversion H; subst. exact Hw. Qed.
Lemma obj_comp_new_in_line k o a p l : pinv (has_obj k o) (comp_new_in_line a p l).
Proof. intros w r w' Hw H N. inversion H; subst. exact Hw. Qed.
Lemma obj_bump k o i : pinv (has_obj k o) (bump_state i).
Proof.
  intros w r w' Hw H N. unfold bump_state in H.
  assert (P : pinv (has_obj k o) (rmod i (with_state (w_next_state w));; modify (fun w => set_next_state (w_next_state w + 1)%Z w))).
  { apply pinv_bind; [now apply obj_rmod|intros; now apply obj_modify]. }
  eapply P; eauto.
Qed.
Lemma obj_clone k o i : pinv (has_obj k o) (res_clone i).
Proof.
  intros w r w' [x [Hx Ho]] H N. unfold res_clone in H. mrget H. mget H.
  apply bind_inv in H as [[u [w1 [H1 H]]]|[[e [H1 H]]|[H1 H]]]; [|discriminate|discriminate].
  inversion H1; subst; clear H1. inversion H; subst; clear H. exists x. simpl. split; auto. now apply nth_app_old.
Qed.
Lemma obj_comp_record k o E c : pinv (has_obj k o) (comp_record E c).
Proof.
  unfold comp_record. apply pinv_bind; [apply pinv_cref|]. intros x. destruct (c_recorded x); [apply pinv_ret|].
  apply pinv_bind; [|intros; now apply obj_modify]. unfold cmod. apply pinv_bind; [apply pinv_cref|]. intros y. now apply obj_modify.
Qed.
#[export] Hint Resolve obj_emit obj_new obj_comp_new obj_comp_new_in_line obj_bump obj_clone obj_comp_record : pinv.
#[export] Hint Extern 1 (pinv (has_obj _ _) (rmod _ _)) => (apply obj_rmod; reflexivity) : pinv.
#[export] Hint Extern 1 (pinv (has_obj _ _) (modify _)) => (apply obj_modify; reflexivity) : pinv.
Lemma obj_qual_id k o q : pinv (has_obj k o) (qual_id q).
Proof. unfold qual_id. pinv_tac. Qed.
#[export] Hint Resolve obj_qual_id : pinv.
Lemma obj_tr_record k o E b i : pinv (has_obj k o) (tr_record E b i).
Proof. unfold tr_record, res_record. pinv_tac. Qed.
#[export] Hint Resolve obj_tr_record : pinv.
Lemma obj_mat_decay k o E i t : pinv (has_obj k o) (mat_decay E i t).
Proof. unfold mat_decay, mat_transmute, tr_modify, comp_decay, new_decay. cbv zeta. pinv_tac. Qed.
#[export] Hint Resolve obj_mat_decay : pinv.
Lemma obj_mat_comp k o E i : pinv (has_obj k o) (mat_comp E i).
Proof. unfold mat_comp. pinv_tac. Qed.
#[export] Hint Resolve obj_mat_comp : pinv.
Lemma obj_package_extract k o E i q p : pinv (has_obj k o) (package_extract E i q p).
Proof. unfold package_extract, mat_package_extract, prod_package_extract, tr_package, tr_modify. pinv_tac. Qed.
#[export] Hint Resolve obj_package_extract : pinv.
Lemma obj_package_loop k o E i n fills : pinv (has_obj k o) (package_loop E i n fills).
Proof. induction fills; simpl; pinv_tac. Qed.
#[export] Hint Resolve obj_package_loop : pinv.
Lemma obj_step k o E a : pinv (has_obj k o) (step E a).
Proof.
  destruct a; simpl; unfold drop, valid_comp, mat_only, mat_create, prod_create, mat_create_untracked, mat_transmute,
    prod_create_untracked, extract_res, mat_extract_qty, mat_extract_comp, prod_extract, absorb, mat_absorb, prod_absorb, res_decay,
    res_package, change_package, mat_change_package, prod_change_package, create_from_mass, create_from_atom, comp_decay, new_decay,
    tr_create, tr_modify, tr_extract, tr_absorb, tr_package; cbv zeta; pinv_tac.
Qed.
Lemma C05_object_fixed_lemma E ops w w' k r : run E ops w = Some w' -> nth_error (w_res w) k = Some r ->
  exists r', nth_error (w_res w') k = Some r' /\ r_obj r' = r_obj r.
Proof. intros H Hr. eapply (run_pinv (has_obj k (r_obj r)) E); [apply obj_step| |exact H]. exists r. auto. Qed.

(** ** The invariant.  [N]: a resource just constructed, not yet recorded.  [D]: resources whose last row
    may be out of date. *)
Definition row_ids (w : world) : list Z := map row_id (res_rows (w_db w)).
Definition untracked_state (w : world) (s : Z) : Prop :=
  exists k r, nth_error (w_res w) k = Some r /\ r_ctx r = false /\ r_state r = s.
Definition row_matches (w : world) (r : resource) (x : row) : Prop :=
  row_id x = r_state r /\ row_qty x = r_qty r /\ row_qual x = qual_val w (r_qual r) /\
  row_type x = res_type (r_qual r) /\
  (row_pkg x = r_pkg r \/ row_type x = "Material"%string /\ r_pkg r = unpackaged_name).

Record J (E : env) (N : option nat) (D : list nat) (w : world) : Prop := mkJ {
  j_tres : forall k r, nth_error (w_res w) k = Some r -> r_tres r = k;
  j_obj : forall k r, nth_error (w_res w) k = Some r -> r_obj r = (Z.of_nat k + 1)%Z;
  j_nobj : w_next_obj w = (Z.of_nat (length (w_res w)) + 1)%Z;
  j_st : forall k r, nth_error (w_res w) k = Some r -> (0 < r_state r < w_next_state w)%Z;
  j_rows : forall x, In x (res_rows (w_db w)) -> (0 < row_id x < w_next_state w)%Z /\ (row_obj x < w_next_obj w)%Z;
  j_sdist : forall k k' r r', nth_error (w_res w) k = Some r -> nth_error (w_res w) k' = Some r' ->
     r_state r = r_state r' -> k = k';
  j_trk : forall k r, nth_error (w_res w) k = Some r -> r_ctx r = true -> r_tracked r = true;
  j_rec : forall k r, nth_error (w_res w) k = Some r -> r_ctx r = true -> N <> Some k -> In (r_state r) (row_ids w);
  j_norec : forall k r, nth_error (w_res w) k = Some r -> (r_ctx r = false \/ N = Some k) ->
     ~ In (r_state r) (row_ids w) /\ forall x, In x (res_rows (w_db w)) -> row_obj x <> r_obj r;
  j_last : forall k r, nth_error (w_res w) k = Some r -> r_ctx r = true -> N <> Some k -> ~ In k D -> e_eps E < r_qty r ->
     exists x, last_row (r_obj r) (res_rows (w_db w)) = Some x /\ row_matches w r x;
  j_par : forall l1 x l2, res_rows (w_db w) = l1 ++ x :: l2 ->
     (row_p1 x = 0%Z \/ In (row_p1 x) (map row_id l1)) /\
     (row_p2 x = 0%Z \/ In (row_p2 x) (map row_id l1) \/ untracked_state w (row_p2 x));
  j_cre : forall x, In x (res_rows (w_db w)) -> (row_p1 x = 0%Z <-> exists a, In (DCreator (row_id x) a) (w_db w));
  j_cre2 : forall s a, In (DCreator s a) (w_db w) -> In s (row_ids w);
  j_qual : forall k r s, nth_error (w_res w) k = Some r -> r_ctx r = true -> r_qual r = QProd s ->
     exists z, assoc s (w_quals w) = Some z;
  j_ptr : forall k r c, nth_error (w_res w) k = Some r -> r_qual r = QMat c -> exists x, nth_error (w_comps w) c = Some x;
  j_pos : (0 < w_next_state w)%Z
}.

Lemma J0 E : J E None [] world0.
Proof.
  constructor; simpl; try (intros k; intros; destruct k; discriminate); try contradiction; try lia.
Qed.

Lemma J_weaken E N D D' w : (forall k, In k D -> In k D') -> J E N D w -> J E N D' w.
Proof.
  intros I0 Hj. destruct Hj as [? ? ? ? ? ? ? ? ? L]. constructor; auto. intros k r A B C F G. apply (L k r A B C); auto.
Qed.

(** Dropping dirty marks that do not matter. *)
Lemma J_clean E N D w : J E N D w ->
  (forall k r, In k D -> nth_error (w_res w) k = Some r -> r_ctx r = false \/ r_qty r <= e_eps E) -> J E N [] w.
Proof.
  intros Hj C. destruct Hj. constructor; auto. intros k r Hk Hc HN _ Hq.
  destruct (in_dec Nat.eq_dec k D); [|eauto]. destruct (C _ _ i Hk); [congruence|lra].
Qed.

(** Compositions may be added, the clock advanced. *)
Lemma J_frame_db E N D w w' : w_res w' = w_res w -> w_next_obj w' = w_next_obj w -> w_next_state w' = w_next_state w ->
  res_rows (w_db w') = res_rows (w_db w) -> (forall s a, In (DCreator s a) (w_db w') <-> In (DCreator s a) (w_db w)) ->
  (forall c x, nth_error (w_comps w) c = Some x -> exists x', nth_error (w_comps w') c = Some x' /\ c_id x' = c_id x) ->
  (forall s z, assoc s (w_quals w) = Some z -> assoc s (w_quals w') = Some z) ->
  J E N D w -> J E N D w'.
Proof.
  intros A B C D0 D1 F G Hj. pose proof Hj as Hj'. destruct Hj'.
  assert (QV : forall k r, nth_error (w_res w) k = Some r -> r_ctx r = true -> qual_val w' (r_qual r) = qual_val w (r_qual r)).
  { intros k r Hk Hc. destruct (r_qual r) as [c|s] eqn:Eq; simpl.
    - destruct (j_ptr _ _ _ _ Hj _ _ _ Hk Eq) as [x Hx]. destruct (F _ _ Hx) as [x' [Hx' Ex]]. now rewrite Hx, Hx'.
    - destruct (j_qual _ _ _ _ Hj _ _ _ Hk Hc Eq) as [z Hz]. now rewrite Hz, (G _ _ Hz). }
  constructor; unfold row_ids, untracked_state in *; rewrite ?A, ?B, ?C, ?D0; auto.
  - intros k r Hk Hc HN Hd Hq. destruct (j_last0 k r Hk Hc HN Hd Hq) as [x [Hl [M1 [M2 [M3 M4]]]]].
    exists x. split; auto. unfold row_matches. rewrite (QV _ _ Hk Hc). auto.
  - intros x Hx. rewrite (j_cre0 x Hx). split; intros [a Ha]; exists a; apply D1; auto.
  - intros s a H. apply D1 in H. eauto.
  - intros k r s Hk Hc Eq. destruct (j_qual0 _ _ _ Hk Hc Eq) as [z Hz]. eauto.
  - intros k r c Hk Eq. destruct (j_ptr0 _ _ _ Hk Eq) as [x Hx]. destruct (F _ _ Hx) as [x' [Hx' _]]. eauto.
Qed.
Lemma J_frame E N D w w' : w_res w' = w_res w -> w_next_obj w' = w_next_obj w -> w_next_state w' = w_next_state w ->
  w_db w' = w_db w ->
  (forall c x, nth_error (w_comps w) c = Some x -> exists x', nth_error (w_comps w') c = Some x' /\ c_id x' = c_id x) ->
  (forall s z, assoc s (w_quals w) = Some z -> assoc s (w_quals w') = Some z) ->
  J E N D w -> J E N D w'.
Proof. intros A B C D0 F G Hj. eapply J_frame_db; eauto; rewrite D0; auto. tauto. Qed.

Lemma J_comp_decay E N D c d s w r w' : J E N D w -> comp_decay E c d s w = (r, w') -> r <> UB -> J E N D w'.
Proof.
  intros Hj H N0. pose proof H as H'. apply comp_decay_phys in H as [_ [A [B [C F]]]]; auto.
  assert (Q : w_quals w' = w_quals w).
  { unfold comp_decay in H'. mcref H'. mget H'.
    apply bind_inv in H' as [[line [wl [H1 H]]]|[[e [H1 H]]|[H1 H]]]; [| |congruence];
      unfold deref in H1; destruct (nth_error (w_lines w) (c_line x)); inversion H1; subst; try congruence.
    destruct (zfind _ line); [inversion H; subst; auto|].
    unfold new_decay in H. destruct (comp_atom E x);
      (apply bind_inv in H as [[di [w2 [H2 H]]]|[[e [H2 H]]|[H2 H]]]; [|discriminate|discriminate]; inversion H2; subst; inversion H; subst; reflexivity). }
  eapply J_frame; [exact A|apply (ce_obj _ _ C)|exact F|exact B| |rewrite Q; auto|exact Hj].
  intros k x Hk. destruct (cext_kept _ _ C _ _ Hk) as [x' [Hx' [Ei _]]]. eauto.
Qed.
Lemma J_comp_new E N D a m w r w' : J E N D w -> comp_new a m w = (r, w') -> J E N D w'.
Proof.
  intros Hj H. inversion H; subst. eapply J_frame; [..|exact Hj]; simpl; auto.
  intros c x Hc. exists x. split; auto. now apply nth_app_old.
Qed.
Lemma J_create_comp E N D b v w r w' : J E N D w -> (if b : bool then create_from_mass E v else create_from_atom E v) w = (r, w') -> J E N D w'.
Proof.
  intros Hj H. unfold create_from_mass, create_from_atom in H.
  destruct b; (destruct (negb (valid_nucs _ v)); [inversion H; subst; auto|]; destruct (negb (all_positive v)); [inversion H; subst; auto|];
  eapply J_comp_new; eauto).
Qed.
(** The pointer handed out by a composition constructor is valid. *)
Lemma create_from_mass_ptr E v w n w' : create_from_mass E v w = (Ok n, w') -> exists x, nth_error (w_comps w') n = Some x.
Proof.
  intros H. apply create_from_mass_inv in H as [[_ [? _]]|[_ [Hn ->]]]; [discriminate|]. inversion Hn; subst.
  eexists. simpl. apply nth_app_new.
Qed.

(** A physical change of resource [i]. *)
Lemma J_upd E N D w i r f : J E N D w -> nth_error (w_res w) i = Some r ->
  r_tres (f r) = r_tres r -> r_obj (f r) = r_obj r -> r_state (f r) = r_state r -> r_ctx (f r) = r_ctx r ->
  (r_ctx r = true -> r_tracked (f r) = true) ->
  (forall s, r_ctx r = true -> r_qual (f r) = QProd s -> exists z, assoc s (w_quals w) = Some z) ->
  (forall c, r_qual (f r) = QMat c -> exists x, nth_error (w_comps w) c = Some x) ->
  J E N (i :: D) (set_res (upd (w_res w) i (f r)) w).
Proof.
  intros Hj Hi T O S C Tr Q P. assert (L := nth_error_lt _ _ _ Hi).
  assert (U : forall k x, nth_error (upd (w_res w) i (f r)) k = Some x ->
     (k = i /\ x = f r) \/ (k <> i /\ nth_error (w_res w) k = Some x)).
  { intros k x H. destruct (Nat.eq_dec i k); [subst|].
    - rewrite nth_upd_same in H by auto. inversion H; auto.
    - rewrite nth_upd_other in H by auto. auto. }
  assert (U2 : forall k x, nth_error (upd (w_res w) i (f r)) k = Some x ->
     exists x0, nth_error (w_res w) k = Some x0 /\ r_tres x = r_tres x0 /\ r_obj x = r_obj x0 /\ r_state x = r_state x0 /\ r_ctx x = r_ctx x0).
  { intros k x H. apply U in H as [[-> ->]|[_ H]]; [exists r|exists x]; auto. }
  pose proof Hj as Hj'. destruct Hj'.
  constructor; simpl; auto.
  - intros k x H. destruct (U2 _ _ H) as [x0 [H0 [A _]]]. rewrite A. eauto.
  - intros k x H. destruct (U2 _ _ H) as [x0 [H0 [_ [A _]]]]. rewrite A. eauto.
  - rewrite upd_length. auto.
  - intros k x H. destruct (U2 _ _ H) as [x0 [H0 [_ [_ [A _]]]]]. rewrite A. eauto.
  - intros k k' x x' H H' Es. destruct (U2 _ _ H) as [x0 [H0 [_ [_ [A _]]]]]. destruct (U2 _ _ H') as [x0' [H0' [_ [_ [A' _]]]]].
    apply (j_sdist0 _ _ _ _ H0 H0'). congruence.
  - intros k x H Hc. apply U in H as [[-> ->]|[_ H]]; [apply Tr; congruence|eauto].
  - intros k x H Hc HN. destruct (U2 _ _ H) as [x0 [H0 [_ [_ [A B]]]]]. rewrite A. eapply j_rec0; eauto; congruence.
  - intros k x H Hc. destruct (U2 _ _ H) as [x0 [H0 [_ [A [B B']]]]]. rewrite A, B. eapply j_norec0; eauto. rewrite <- B'. auto.
  - intros k x H Hc HN Hd Hq. apply U in H as [[-> ->]|[Hne H]]; [exfalso; apply Hd; auto|].
    destruct (j_last0 k x H Hc HN ltac:(auto) Hq) as [y [Hl M]]. exists y. split; auto.
  - intros l1 x l2 H. destruct (j_par0 _ _ _ H) as [A B]. split; auto. destruct B as [B|[B|[k [y [Hy [Hc Hs]]]]]]; auto.
    right; right. unfold untracked_state. simpl. destruct (Nat.eq_dec k i); [subst|].
    + rewrite Hi in Hy. inversion Hy; subst y. exists i, (f r). rewrite nth_upd_same by auto. rewrite C, S. auto.
    + exists k, y. rewrite nth_upd_other by auto. auto.
  - intros k x s H Hc Eq. apply U in H as [[-> ->]|[_ H]]; [apply (Q s); congruence|eauto].
  - intros k x c H Eq. apply U in H as [[-> ->]|[_ H]]; eauto.
Qed.

Lemma J_rmod E N D w i f u w' : J E N D w -> rmod i f w = (u, w') -> u <> UB ->
  (forall r, r_tres (f r) = r_tres r) -> (forall r, r_obj (f r) = r_obj r) -> (forall r, r_state (f r) = r_state r) ->
  (forall r, r_ctx (f r) = r_ctx r) -> (forall r, r_tracked (f r) = r_tracked r) -> (forall r, r_qual (f r) = r_qual r) ->
  J E N (i :: D) w'.
Proof.
  intros Hj H N0 F1 F2 F3 F4 F5 F6. apply rmod_inv in H as [r [Hr [_ ->]]]; auto.
  apply J_upd; auto.
  - intros Hc. rewrite F5. eapply j_trk; eauto.
  - intros s Hc Eq. rewrite F6 in Eq. eapply j_qual; eauto.
  - intros c Eq. rewrite F6 in Eq. eapply j_ptr; eauto.
Qed.
(** Parent pointers of the tracker do not dirty anything. *)
Lemma J_parents E N D w i a b u w' : J E N D w -> rmod i (with_parents a b) w = (u, w') -> u <> UB -> J E N D w'.
Proof.
  intros Hj H N0. pose proof (J_rmod _ _ _ _ _ _ _ _ Hj H N0 ltac:(reflexivity) ltac:(reflexivity) ltac:(reflexivity) ltac:(reflexivity) ltac:(reflexivity) ltac:(reflexivity)) as J1.
  apply rmod_inv in H as [r [Hr [_ ->]]]; auto. destruct J1. constructor; auto.
  intros k x Hk Hc HN Hd Hq. simpl in Hk. destruct (Nat.eq_dec i k); [subst|].
  - rewrite nth_upd_same in Hk by (eapply nth_error_lt; eauto). inversion Hk; subst x.
    destruct (j_last _ _ _ _ Hj k r Hr Hc HN Hd Hq) as [y [Hl M]]. exists y. split; auto.
  - apply (j_last0 k x); auto. intros [A|A]; congruence || contradiction.
Qed.
Lemma J_tracked E N D w j f u w' : J E N D w -> rmod j f w = (u, w') -> u <> UB ->
  (forall r, r_tres (f r) = r_tres r) -> (forall r, r_obj (f r) = r_obj r) -> (forall r, r_state (f r) = r_state r) ->
  (forall r, r_ctx (f r) = r_ctx r) -> (forall r, r_tracked (f r) = true) -> (forall r, r_qual (f r) = r_qual r) ->
  J E N (j :: D) w'.
Proof.
  intros Hj H N0 F1 F2 F3 F4 F5 F6. apply rmod_inv in H as [r [Hr [_ ->]]]; auto.
  apply J_upd; auto.
  - intros s Hc Eq. rewrite F6 in Eq. eapply j_qual; eauto.
  - intros c Eq. rewrite F6 in Eq. eapply j_ptr; eauto.
Qed.

(** A constructor. *)
Lemma J_new E D w q ctx qty pkg j w' : J E None D w -> new_resource q ctx qty pkg w = (Ok j, w') ->
  (forall c, q = QMat c -> exists x, nth_error (w_comps w) c = Some x) ->
  (forall s, ctx = true -> q = QProd s -> exists z, assoc s (w_quals w) = Some z) ->
  J E (if ctx then Some j else None) D w' /\ j = length (w_res w).
Proof.
  intros Hj H P Q. unfold new_resource in H. inversion H; subst; clear H. split; auto.
  pose proof Hj as Hj'. destruct Hj'.
  set (r := mkRes q qty (w_next_obj w) (w_next_state w) ctx (match q with QMat _ => ctx | QProd _ => true end) 0 0
    (length (w_res w)) pkg (match q with QMat _ => if ctx then w_time w else 0%Z | QProd _ => 0%Z end)).
  assert (U : forall k x, nth_error (w_res w ++ [r]) k = Some x ->
     nth_error (w_res w) k = Some x /\ k <> length (w_res w) \/ k = length (w_res w) /\ x = r).
  { intros k x Hk. destruct (Nat.lt_ge_cases k (length (w_res w))).
    - rewrite nth_error_app1 in Hk by auto. left. split; auto. lia.
    - rewrite nth_error_app2 in Hk by auto. destruct (k - length (w_res w))%nat eqn:D0; simpl in Hk; [|destruct n; discriminate].
      inversion Hk; subst. right. split; auto. lia. }
  assert (NI : ~ In (w_next_state w) (row_ids w)).
  { intros Hi. apply in_map_iff in Hi as [x [Ex Hx]]. apply j_rows0 in Hx. lia. }
  constructor; simpl; auto.
  - intros k x Hk. apply U in Hk as [[Hk _]|[-> ->]]; [eauto|reflexivity].
  - intros k x Hk. apply U in Hk as [[Hk _]|[-> ->]]; [eauto|]. exact j_nobj0.
  - rewrite app_length. simpl. lia.
  - intros k x Hk. apply U in Hk as [[Hk _]|[-> ->]]; [apply j_st0 in Hk; lia|simpl; lia].
  - intros x Hx. apply j_rows0 in Hx. lia.
  - intros k k' x x' Hk Hk' Es. apply U in Hk as [[Hk _]|[-> ->]]; apply U in Hk' as [[Hk' _]|[-> ->]]; eauto.
    + apply j_st0 in Hk. simpl in Es. lia.
    + apply j_st0 in Hk'. simpl in Es. lia.
  - intros k x Hk Hc. apply U in Hk as [[Hk _]|[-> ->]]; [eauto|]. simpl in *. destruct q; auto.
  - intros k x Hk Hc HN. apply U in Hk as [[Hk Hne]|[-> ->]].
    + eapply (j_rec0 k x); eauto. discriminate.
    + simpl in Hc. rewrite Hc in HN. congruence.
  - intros k x Hk Hc. apply U in Hk as [[Hk Hne]|[-> ->]].
    + apply (j_norec0 k x Hk). destruct Hc as [Hc|Hc]; auto. destruct ctx; [inversion Hc; congruence|discriminate].
    + simpl. split; auto. intros x Hx E0. apply j_rows0 in Hx. lia.
  - intros k x Hk Hc HN Hd Hq. apply U in Hk as [[Hk Hne]|[-> ->]].
    + destruct (j_last0 k x Hk Hc ltac:(discriminate) Hd Hq) as [y [Hl M]]. exists y; split; auto.
    + simpl in Hc. rewrite Hc in HN. congruence.
  - intros l1 x l2 Hl. destruct (j_par0 _ _ _ Hl) as [A B]. split; auto. destruct B as [B|[B|[k [y [Hy B]]]]]; auto.
    right; right. exists k, y. simpl. split; auto. now apply nth_app_old.
  - intros k x s Hk Hc Eq. apply U in Hk as [[Hk _]|[-> ->]]; [eauto|]. simpl in *. eauto.
  - intros k x c Hk Eq. apply U in Hk as [[Hk _]|[-> ->]]; [eauto|]. simpl in *. eauto.
  - lia.
Qed.

(** The recording of a resource. *)
Lemma last_row_app_same o l x : row_obj x = o -> last_row o (l ++ [x]) = Some x.
Proof. intros H. unfold last_row. rewrite rev_app_distr. simpl. rewrite H, Z.eqb_refl. reflexivity. Qed.
Lemma last_row_app_other o l x : row_obj x <> o -> last_row o (l ++ [x]) = last_row o l.
Proof. intros H. unfold last_row. rewrite rev_app_distr. simpl. destruct (Z.eqb_spec (row_obj x) o); congruence. Qed.

Definition rm (i : nat) (D : list nat) : list nat := filter (fun k => negb (Nat.eqb k i)) D.
Lemma rm_In k i D : In k (rm i D) <-> In k D /\ k <> i.
Proof.
  unfold rm. rewrite filter_In. destruct (Nat.eqb_spec k i); simpl; intuition congruence.
Qed.
Definition drop_new (N : option nat) (i : nat) : option nat :=
  match N with Some k => if Nat.eqb k i then None else N | None => None end.
Lemma drop_new_spec N i k : drop_new N i = Some k <-> N = Some k /\ k <> i.
Proof.
  unfold drop_new. destruct N as [n|]; [|split; [discriminate|intros [? _]; discriminate]].
  destruct (Nat.eqb_spec n i); split; try discriminate.
  - intros [A B]. inversion A; congruence.
  - intros A. inversion A; subst. auto.
  - tauto.
Qed.

Definition add_db (l : list datum) (w : world) : world := set_db (w_db w ++ l) w.

Lemma J_record E N D w b i r ext : J E N D w -> nth_error (w_res w) i = Some r -> r_ctx r = true ->
  (b = true \/ N = Some i) ->
  (r_p1 r = 0%Z \/ In (r_p1 r) (row_ids w)) ->
  (r_p2 r = 0%Z \/ In (r_p2 r) (row_ids w) \/ untracked_state w (r_p2 r)) ->
  (r_p1 r <> 0%Z /\ ext = [] \/ r_p1 r = 0%Z /\ exists a, ext = [DCreator (rec_state b w r) a]) ->
  J E (drop_new N i) (rm i D) (add_db ext (rec_world E b r r w)).
Proof.
  intros Hj Hi Hc Hb Hp1 Hp2 Hext. pose proof Hj as Hj'. destruct Hj'.
  assert (T := j_tres0 _ _ Hi). assert (L := nth_error_lt _ _ _ Hi).
  assert (RR : res_rows ((w_db w ++ rec_data E b r r w) ++ ext) = res_rows (w_db w) ++ [rec_row b r r w]).
  { rewrite !res_rows_app, rec_data_rows. destruct Hext as [[_ ->]|[_ [a ->]]]; simpl; now rewrite app_nil_r. }
  set (st := rec_state b w r) in *.
  assert (NI : ~ In st (row_ids w)).
  { unfold st, rec_state. destruct b.
    - intros HI. apply in_map_iff in HI as [x [Ex Hx]]. apply j_rows0 in Hx. lia.
    - destruct Hb as [Hb|Hb]; [discriminate|]. apply (j_norec0 i r Hi). auto. }
  assert (SB : (0 < st < (if b then w_next_state w + 1 else w_next_state w))%Z).
  { unfold st, rec_state. destruct b; [lia|]. apply (j_st0 i r Hi). }
  assert (SD : forall k x, k <> i -> nth_error (w_res w) k = Some x -> r_state x <> st).
  { intros k x Hne Hk. unfold st, rec_state. destruct b.
    - apply j_st0 in Hk. lia.
    - intros Es. apply Hne. eapply j_sdist0; eauto. }
  assert (U : forall k x, nth_error (upd (w_res w) i (with_state st r)) k = Some x ->
     (k = i /\ x = with_state st r) \/ (k <> i /\ nth_error (w_res w) k = Some x)).
  { intros k x H. destruct (Nat.eq_dec i k); [subst|].
    - rewrite nth_upd_same in H by auto. inversion H; auto.
    - rewrite nth_upd_other in H by auto. auto. }
  assert (CK : forall c x, nth_error (w_comps w) c = Some x -> exists x', nth_error (rec_comps r w) c = Some x' /\ c_id x' = c_id x).
  { intros c x H. unfold rec_comps. destruct (r_qual r) as [c0|s]; [|eauto].
    destruct (nth_error (w_comps w) c0) as [cx|] eqn:Hc0; [|eauto]. destruct (Nat.eq_dec c0 c); [subst|].
    - rewrite nth_upd_same by (eapply nth_error_lt; eauto). rewrite H in Hc0. inversion Hc0; subst. eauto.
    - rewrite nth_upd_other by auto. eauto. }
  assert (QK : forall s z, assoc s (w_quals w) = Some z -> assoc s (rec_quals r w) = Some z).
  { intros s z H. unfold rec_quals. destruct (r_qual r) as [c0|s0] eqn:Eq; auto.
    destruct (j_qual0 _ _ _ Hi Hc Eq) as [z0 Hz0]. rewrite Hz0. auto. }
  assert (QV : forall k x, nth_error (w_res w) k = Some x -> r_ctx x = true ->
     qual_val (add_db ext (rec_world E b r r w)) (r_qual x) = qual_val w (r_qual x)).
  { intros k x Hk Hcx. destruct (r_qual x) as [c|s] eqn:Eq; simpl.
    - destruct (j_ptr0 _ _ _ Hk Eq) as [y Hy]. destruct (CK _ _ Hy) as [y' [Hy' Ey]]. now rewrite Hy, Hy'.
    - destruct (j_qual0 _ _ _ Hk Hcx Eq) as [z Hz]. now rewrite Hz, (QK _ _ Hz). }
  assert (OB : r_obj r = (Z.of_nat i + 1)%Z) by eauto.
  constructor; unfold row_ids in *; simpl; rewrite ?T, ?RR; auto.
  - intros k x H. apply U in H as [[-> ->]|[_ H]]; [exact T|eauto].
  - intros k x H. apply U in H as [[-> ->]|[_ H]]; [exact OB|eauto].
  - rewrite upd_length. auto.
  - intros k x H. apply U in H as [[-> ->]|[_ H]]; [exact SB|]. apply j_st0 in H. destruct b; lia.
  - intros x H. apply in_app_or in H as [H|[H|[]]].
    + apply j_rows0 in H. destruct b; lia.
    + subst x. simpl. split; [exact SB|]. rewrite OB, j_nobj0. lia.
  - intros k k' x x' H H' Es. apply U in H as [[-> ->]|[Hne H]]; apply U in H' as [[-> ->]|[Hne' H']]; auto.
    + exfalso. apply (SD _ _ Hne' H'). simpl in Es. auto.
    + exfalso. apply (SD _ _ Hne H). simpl in Es. auto.
    + eauto.
  - intros k x H Hcx. apply U in H as [[-> ->]|[_ H]]; [simpl; eauto|eauto].
  - intros k x H Hcx HN. rewrite map_app. apply in_or_app. apply U in H as [[-> ->]|[Hne H]]; [right; simpl; auto|left].
    eapply j_rec0; eauto. intros EN. apply HN. apply drop_new_spec. auto.
  - intros k x H Hcx. apply U in H as [[-> ->]|[Hne H]].
    + exfalso. simpl in Hcx. destruct Hcx as [Hcx|Hcx]; [congruence|]. apply drop_new_spec in Hcx. tauto.
    + assert (Hcx' : r_ctx x = false \/ N = Some k).
      { destruct Hcx as [Hcx|Hcx]; auto. apply drop_new_spec in Hcx. tauto. }
      destruct (j_norec0 _ _ H Hcx') as [A B]. split.
      * rewrite map_app. intros HI. apply in_app_or in HI as [HI|[HI|[]]]; auto. simpl in HI. apply (SD _ _ Hne H). auto.
      * intros y Hy. apply in_app_or in Hy as [Hy|[Hy|[]]]; auto. subst y. simpl. rewrite OB, (j_obj0 _ _ H). lia.
  - intros k x H Hcx HN Hd Hq. apply U in H as [[-> ->]|[Hne H]].
    + eexists. split; [apply last_row_app_same; reflexivity|].
      unfold row_matches. change (r_qual (with_state st r)) with (r_qual r). rewrite (QV _ _ Hi Hc).
      simpl. repeat split; auto.
    + assert (Hd' : ~ In k D) by (intros Hk; apply Hd; apply rm_In; auto).
      assert (HN' : N <> Some k) by (intros EN; apply HN; apply drop_new_spec; auto).
      destruct (j_last0 k x H Hcx HN' Hd' Hq) as [y [Hl [M1 [M2 [M3 M4]]]]]. exists y. split.
      * rewrite last_row_app_other; auto. simpl. rewrite OB, (j_obj0 _ _ H). lia.
      * unfold row_matches. rewrite (QV _ _ H Hcx). auto.
  - assert (UT : forall s, untracked_state w s -> untracked_state (add_db ext (rec_world E b r r w)) s).
    { intros s [k [y [Hy [Hcy Hs]]]]. exists k, y. simpl. rewrite T. rewrite nth_upd_other; auto.
      intros ->. rewrite Hi in Hy. inversion Hy; subst. congruence. }
    intros l1 x l2 Hl. destruct l2 as [|z l2] using rev_ind.
    + apply app_inj_tail in Hl as [<- <-]. simpl. split; auto. destruct Hp2 as [?|[?|?]]; auto.
    + clear IHl2. change (l1 ++ x :: l2 ++ [z]) with (l1 ++ (x :: l2) ++ [z]) in Hl. rewrite app_assoc in Hl.
      apply app_inj_tail in Hl as [Hl _]. destruct (j_par0 _ _ _ Hl) as [A B]. split; auto.
      destruct B as [B|[B|B]]; auto.
  - intros x H. rewrite !in_app_iff in *.
    assert (CD : forall s a, In (DCreator s a) ((w_db w ++ rec_data E b r r w) ++ ext) <->
        In (DCreator s a) (w_db w) \/ In (DCreator s a) ext).
    { intros s a. rewrite !in_app_iff. split; [|tauto]. intros [[HI|HI]|HI]; auto.
      exfalso. unfold rec_data in HI. simpl in HI. destruct HI as [HI|HI]; [discriminate|].
      destruct (r_qual r); [|contradiction]. simpl in HI. destruct HI as [HI|HI]; [discriminate|].
      destruct (nth_error (w_comps w) c); [|contradiction]. destruct (c_recorded c0); [contradiction|].
      unfold comp_rows in HI. apply in_map_iff in HI as [? [HI _]]. discriminate. }
    destruct H as [H|[H|[]]].
    + rewrite (j_cre0 _ H). split.
      * intros [a Ha]. exists a. apply CD. auto.
      * intros [a Ha]. apply CD in Ha as [Ha|Ha]; eauto. exfalso.
        destruct Hext as [[_ ->]|[_ [a0 ->]]]; [contradiction|]. destruct Ha as [Ha|[]]. inversion Ha; subst.
        apply NI. fold st. rewrite H1. now apply in_map.
    + subst x. simpl. split.
      * intros E0. destruct Hext as [[Hne _]|[_ [a ->]]]; [congruence|]. exists a. apply CD. right. left. reflexivity.
      * intros [a Ha]. apply CD in Ha as [Ha|Ha].
        -- exfalso. apply NI. eapply (j_cre2 _ _ _ _ Hj); eauto.
        -- destruct Hext as [[_ ->]|[E0 _]]; [contradiction|auto].
  - intros s a HI. rewrite map_app, in_app_iff. rewrite !in_app_iff in HI. destruct HI as [[HI|HI]|HI].
    + left. eauto.
    + exfalso. unfold rec_data in HI. simpl in HI. destruct HI as [HI|HI]; [discriminate|].
      destruct (r_qual r); [|contradiction]. simpl in HI. destruct HI as [HI|HI]; [discriminate|].
      destruct (nth_error (w_comps w) c); [|contradiction]. destruct (c_recorded c0); [contradiction|].
      unfold comp_rows in HI. apply in_map_iff in HI as [? [HI _]]. discriminate.
    + right. destruct Hext as [[_ ->]|[_ [a0 ->]]]; [contradiction|]. destruct HI as [HI|[]]. inversion HI; subst. left. reflexivity.
  - intros k x s H Hcx Eq. apply U in H as [[-> ->]|[_ H]].
    + destruct (j_qual0 _ _ _ Hi Hc Eq) as [z Hz]. eauto.
    + destruct (j_qual0 _ _ _ H Hcx Eq) as [z Hz]. eauto.
  - intros k x c H Eq. assert (G : exists y, nth_error (w_comps w) c = Some y).
    { apply U in H as [[-> ->]|[_ H]]; eauto. }
    destruct G as [y Hy]. destruct (CK _ _ Hy) as [y' [Hy' _]]. eauto.
  - destruct b; lia.
Qed.
